(** Computable conditions: shapes of schema objects, the schemas a document
    meets, depth; and documents resolved in two worlds alike. *)
From Verif Require Export Checked LoadDecide.
From Coq Require Import Lia.
Open Scope string_scope.
Open Scope list_scope.
Open Scope nat_scope.

(** ** Numbers *)
Lemma moderate_weak a b s : (a <= b)%Z -> moderate a s -> moderate b s.
Proof. intros H [N [Z|(x & E & X)]]; (split; [exact N|]); [left; auto|right]. exists x. split; auto. lia. Qed.
Lemma all_numbers_weak (P Q : string -> Prop) v : (forall s, P s -> Q s) -> all_numbers P v -> all_numbers Q v.
Proof.
  intros HPQ. induction v using value_ind'; intros E; inversion E; subst; try (constructor; auto; fail).
  - constructor. rewrite Forall_forall in *. auto.
  - constructor. rewrite Forall_forall in *. intros e He. apply H; auto.
Qed.

(** ** Shapes *)
Definition when (m : list (string * value)) (k : string) (f : value -> bool) : bool := match assoc k m with Some x => f x | None => true end.
Lemma when_kw m k f (P : value -> Prop) : when m k f = true -> (forall x, f x = true -> P x) -> kw m k P.
Proof. unfold when, kw. intros H HP x E. rewrite E in H. auto. Qed.
Definition strings_of (l : list value) : option (list string) :=
  fold_right (fun v acc => match v, acc with VStr s, Some ss => Some (s :: ss) | _, _ => None end) (Some []) l.
Lemma strings_of_eq l : forall ss, strings_of l = Some ss -> l = map VStr ss.
Proof.
  induction l as [|v l IH]; intros ss E; cbn in E; [injection E as <-; reflexivity|]. destruct v; try discriminate E.
  fold (strings_of l) in E. destruct (strings_of l) as [x|]; [|discriminate E]. injection E as <-. cbn. f_equal. auto.
Qed.
Definition number_b (x : value) : bool := match x with VNum s => moderate_b 0 s | _ => false end.
Lemma number_checked x : number_b x = true -> is_number x.
Proof. destruct x as [|b|t|f|t|l|o|o]; try discriminate. intros H. apply moderate_b_ok in H. destruct H as [[q H] _]. exists q, t. auto. Qed.
Definition natural_b (x : value) : bool :=
  (number_b x && match mustBeInteger 0 x with Some z => (0 <=? z)%Z | None => false end)%bool.
Lemma natural_checked x : natural_b x = true -> exists n, natural x n.
Proof.
  unfold natural_b. intros H. apply andb_prop in H. destruct H as [H1 H2]. destruct (mustBeInteger 0 x) as [z|] eqn:E; [|discriminate H2].
  exists z. apply (natural_iff 0 x z).
  - destruct x; try discriminate H1. cbn in H1. unfold moderate_b in H1. apply andb_prop in H1. split; [constructor; apply H1|reflexivity].
  - destruct x; try discriminate H1. constructor. apply moderate_b_ok. exact H1.
  - exists z. apply Z.leb_le in H2. auto.
Qed.
Definition bool_b (x : value) : bool := match x with VBool _ => true | _ => false end.
Definition object_b (x : value) : bool := match x with VMap _ => true | _ => false end.
Definition array_b (x : value) : bool := match x with VArr _ => true | _ => false end.
Definition string_b (x : value) : bool := match x with VStr _ => true | _ => false end.
Lemma bool_checked x : bool_b x = true -> is_boolean x.
Proof. destruct x; try discriminate. eexists. reflexivity. Qed.
Lemma object_checked x : object_b x = true -> is_object x.
Proof. destruct x; try discriminate. eexists. reflexivity. Qed.
Lemma array_checked x : array_b x = true -> is_array x.
Proof. destruct x; try discriminate. eexists. reflexivity. Qed.
Lemma string_checked x : string_b x = true -> is_string x.
Proof. destruct x; try discriminate. eexists. reflexivity. Qed.

Section Shapes.
  Variable url_b : string -> bool.
  Variable d : draft.
  Variable m : list (string * value).
  Notation on := (when m).
  Definition text_b (x : value) : bool := match x with VStr s => url_b s | _ => false end.
  Definition type_b (x : value) : bool :=
    match x with
    | VStr t => existsb (String.eqb t) type_names
    | VArr l => match strings_of l with Some ss => (nodup_b ss && forallb (fun t => existsb (String.eqb t) type_names) ss)%bool | None => false end
    | _ => false
    end.
  Definition exclusive_b (key xkey : string) : bool := on xkey (fun x =>
    match x with
    | VBool _ => ((draft_eqb d Draft4 || draft_eqb d Hybrid) && match assoc key m with Some _ => true | None => false end)%bool
    | VNum _ => (negb (draft_eqb d Draft4) && number_b x)%bool
    | _ => false
    end).
  Definition enum_b (x : value) : bool := match x with VArr l => match strings_of l with Some ss => nodup_b ss | None => false end | _ => false end.
  Definition absent (k : string) : bool := match assoc k m with Some _ => false | None => true end.
  Definition dependencies_b (x : value) : bool :=
    match x with VMap ds => forallb (fun e => (match snd e with VArr l => match strings_of l with Some _ => true | None => false end | _ => false end || (bool_b (snd e) || object_b (snd e)))%bool) ds | _ => false end.
  (** Enough for the embedded meta-schemas. *)
  Definition shapes_b : bool :=
    (on (id_keyword d m) text_b && on "definitions" object_b && on "title" string_b && on "description" string_b && on "$ref" text_b &&
     (on "type" type_b && absent "multipleOf" && on "minimum" number_b && exclusive_b "minimum" "exclusiveMinimum" &&
      on "maximum" number_b && exclusive_b "maximum" "exclusiveMaximum" && on "minLength" natural_b && absent "maxLength" && absent "pattern" &&
      on "format" string_b && on "minProperties" natural_b && absent "maxProperties" && absent "required" && on "minItems" natural_b &&
      on "maxItems" natural_b && on "uniqueItems" bool_b && absent "const" && on "enum" enum_b) &&
     (on "properties" object_b && on "additionalProperties" (fun x => bool_b x || object_b x) && absent "patternProperties" && on "dependencies" dependencies_b &&
      on "items" (fun x => array_b x || bool_b x || object_b x) && on "additionalItems" (fun x => bool_b x || object_b x) &&
      on "oneOf" array_b && on "anyOf" array_b && on "allOf" array_b))%bool.

  Lemma absent_kw k P : absent k = true -> kw m k P.
  Proof. unfold absent, kw. intros H x E. rewrite E in H. discriminate H. Qed.
  Lemma type_checked x : type_b x = true -> (exists t, x = VStr t /\ In t type_names) \/ (exists l, texts x l /\ NoDup l /\ incl l type_names).
  Proof.
    assert (I : forall t, existsb (String.eqb t) type_names = true -> In t type_names).
    { intros t H. apply existsb_exists in H. destruct H as (y & Hy & E). apply String.eqb_eq in E. subst. auto. }
    destruct x as [|b|t|f|t|l|o|o]; try discriminate; cbn [type_b]; [left; exists t; auto|]. intros H. right.
    destruct (strings_of l) as [ss|] eqn:E; [|discriminate H]. exists ss. apply strings_of_eq in E. subst. split; [reflexivity|].
    apply andb_prop in H. destruct H as [H1 H2]. split; [apply nodup_b_ok; auto|]. rewrite forallb_forall in H2. intros t Ht. auto.
  Qed.
  Lemma exclusive_checked key xkey : exclusive_b key xkey = true -> ok_exclusive d m key xkey.
  Proof.
    unfold exclusive_b, when, ok_exclusive, kw. intros H x E. rewrite E in H. destruct x; try discriminate H.
    - left. apply andb_prop in H. destruct H as [H1 H2]. split; [|split; [eexists; reflexivity|]].
      + apply orb_prop in H1. destruct H1 as [H1|H1]; apply draft_eqb_eq in H1; auto.
      + intros N. rewrite N in H2. discriminate H2.
    - right. apply andb_prop in H. destruct H as [H1 H2]. split; [|apply number_checked; auto]. intros N. rewrite N in H1. discriminate H1.
  Qed.
  Lemma distinct_texts ss : NoDup ss -> ForallOrdPairs (fun a b => ~ same a b) (map VStr ss).
  Proof.
    induction 1 as [|s ss Hn _ IH]; cbn [map]; constructor; auto. apply Forall_forall. intros y Hy E. apply in_map_iff in Hy. destruct Hy as (t & <- & Ht).
    inversion E as [| |? E1 E2|? ? N| |]; subst; [contradiction|]. destruct N as (f & [(z & X & _)|[X _]] & _); discriminate X.
  Qed.
  Lemma enum_checked x : enum_b x = true -> exists l, x = VArr l /\ Forall in_float_range l /\ ForallOrdPairs (fun a b => ~ same a b) l.
  Proof.
    destruct x as [|b|t|f|t|l|o|o]; try discriminate. cbn [enum_b]. destruct (strings_of l) as [ss|] eqn:E; [|discriminate]. intros H. apply strings_of_eq in E. subst.
    eexists. split; [reflexivity|]. split; [|apply distinct_texts, nodup_b_ok; auto]. apply Forall_forall. intros y Hy. apply in_map_iff in Hy. destruct Hy as (t & <- & _). constructor.
  Qed.
  Variable url : string -> Prop.
  Hypothesis Hurl : forall s, url_b s = true -> url s.
  Variable re : string -> Prop.
  Lemma shapes_checked : shapes_b = true -> shapes re url same d m.
  Proof.
    assert (T : forall x, text_b x = true -> exists s, x = VStr s /\ url s) by (intros [|b|t|f|t|l|o|o]; try discriminate; cbn; eauto).
    assert (A : forall x, (bool_b x || object_b x)%bool = true -> is_boolean x \/ is_object x).
    { intros x H. apply orb_prop in H. destruct H; [left; apply bool_checked|right; apply object_checked]; auto. }
    unfold shapes_b. rewrite !andb_true_iff. intros ((((((H1 & H2) & H3) & H4) & H5) & P) & S).
    split; [|split].
    - unfold head_shapes, ok_id, ok_ref. repeat match goal with |- _ /\ _ => apply conj end; eapply when_kw; eauto using object_checked, string_checked.
    - decompose [and] P. clear P S. unfold plain_shapes. repeat match goal with |- _ /\ _ => apply conj end;
        try (eapply absent_kw; eassumption); try (eapply exclusive_checked; eassumption);
        try (eapply when_kw; [eassumption|]; first [apply type_checked|apply number_checked|apply natural_checked|apply string_checked|apply bool_checked|apply enum_checked]).
      + intros x _. apply (absent_kw "maxLength"); auto.
      + intros x _. apply (absent_kw "maxProperties"); auto.
      + intros _. apply absent_kw. auto.
    - destruct S as ((((((((S1 & S2) & S3) & S4) & S5) & S6) & S7) & S8) & S9). unfold schema_shapes. repeat match goal with |- _ /\ _ => apply conj end.
      + exact (when_kw _ _ _ _ S1 object_checked).
      + exact (when_kw _ _ _ _ S2 A).
      + exact (absent_kw _ _ S3).
      + apply (when_kw _ _ _ _ S4). intros x Hx. destruct x as [|b|t|f|t|l|ds|o]; try discriminate Hx. exists ds. split; [reflexivity|]. cbn [dependencies_b] in Hx.
        rewrite forallb_forall in Hx. intros k a Ha. specialize (Hx _ Ha). cbn [snd] in Hx. apply orb_prop in Hx. destruct Hx as [Hx|Hx]; [left|right; auto].
        destruct a as [|b|t|f|t|l|ds'|o]; try discriminate Hx. destruct (strings_of l) as [ss|] eqn:E; [|discriminate Hx]. exists ss. apply strings_of_eq in E. subst. reflexivity.
      + apply (when_kw _ _ _ _ S5). intros x Hx. apply orb_prop in Hx. destruct Hx as [Hx|Hx]; [|right; right; apply object_checked; auto]. apply orb_prop in Hx.
        destruct Hx; [left; apply array_checked|right; left; apply bool_checked]; auto.
      + exact (when_kw _ _ _ _ S6 A).
      + exact (when_kw _ _ _ _ S7 array_checked).
      + exact (when_kw _ _ _ _ S8 array_checked).
      + exact (when_kw _ _ _ _ S9 array_checked).
  Qed.
End Shapes.

(** ** What a document meets *)
Definition elems (v : value) : list value := match v with VArr l => l | _ => [] end.
Definition subs (m : list (string * value)) : list value :=
  flat_map (fun k => filter (fun x => negb (bool_b x)) (at_key m k)) ["additionalProperties"; "additionalItems"] ++
  filter (fun x => negb (array_b x)) (at_key m "items") ++
  flat_map (at_key m) ["contains"; "propertyNames"; "if"; "then"; "else"; "not"] ++
  flat_map (fun k => flat_map vals (at_key m k)) ["definitions"; "properties"; "patternProperties"] ++
  flat_map (fun k => flat_map elems (at_key m k)) ["items"; "oneOf"; "anyOf"; "allOf"] ++
  filter (fun x => negb (array_b x)) (flat_map vals (at_key m "dependencies")).
Lemma subschema_subs d m x : subschema d m x -> In x (subs m).
Proof.
  unfold subs. rewrite !in_app_iff, !filter_In. rewrite !in_flat_map.
  intros [ds n y E H|k ms n y Hk E H|k y Hk E N|ds n y E H N|y E N|k l y Hk E H|k y _ Hk E|k y _ Hk E|y E].
  - right; right; right; left. exists "definitions". split; [simpl; auto|]. eapply in_at_elements; eauto. apply (in_map snd ds (n, y) H).
  - right; right; right; left. exists k. split; [simpl in *; tauto|]. eapply in_at_elements; eauto. apply (in_map snd ms (n, y) H).
  - left. exists k. split; [simpl in *; tauto|]. apply filter_In. split; [apply in_at_key; auto|]. destruct y; auto. destruct N. eexists. reflexivity.
  - right; right; right; right; right. split; [|destruct y; auto; destruct N; eexists; reflexivity]. exists (VMap ds). split; [apply in_at_key; auto|apply (in_map snd ds (n, y) H)].
  - right; left. split; [apply in_at_key; auto|]. destruct y; auto. destruct N. eexists. reflexivity.
  - right; right; right; right; left. exists k. split; [simpl in *; tauto|]. apply in_flat_map. exists (VArr l). split; [apply in_at_key; auto|exact H].
  - right; right; left. exists k. split; [simpl in *; tauto|apply in_at_key; auto].
  - right; right; left. exists k. split; [simpl in *; tauto|apply in_at_key; auto].
  - right; right; left. exists "not". split; [simpl; tauto|apply in_at_key; auto].
Qed.

Section Met.
  Variable lead : string -> option (draft * value).
  Variable url_b : string -> bool.
  Definition nexts (q : draft * value) : option (list (draft * value)) :=
    match snd q with
    | VMap m =>
        match assoc "$ref" m with
        | Some (VStr k) => match lead k with Some p => Some (p :: map (pair (fst q)) (subs m)) | None => None end
        | _ => Some (map (pair (fst q)) (subs m))
        end
    | _ => Some []
    end.
  Fixpoint collect_met (n : nat) (todo L : list (draft * value)) : list (draft * value) :=
    match n, todo with
    | O, _ => L
    | _, [] => L
    | S n', q :: todo' => if mem q L then collect_met n' todo' L else collect_met n' (match nexts q with Some a => a | None => [] end ++ todo') (q :: L)
    end.
  Definition right_b (q : draft * value) : bool :=
    (numbers_b (moderate_b 0) (snd q) && match snd q with VBool _ => negb (draft_eqb (fst q) Draft4) | VMap m => shapes_b url_b (fst q) m | _ => false end)%bool.
  Definition met_b (L : list (draft * value)) (q : draft * value) : bool :=
    (mem q L && forallb (fun q' => draft_eqb (fst q') (fst q) && right_b q' && match nexts q' with Some a => forallb (fun p => mem p L) a | None => false end) L)%bool.

  Variable T : draft -> string -> draft -> value -> Prop.
  Variable d0 : draft.
  Hypothesis HT : forall k q, lead k = Some q -> forall d' x, T d0 k d' x -> (d', x) = q.
  Lemma meets_collected L v0 : met_b L (d0, v0) = true -> forall d v, meets T d0 v0 d v -> In (d, v) L.
  Proof.
    unfold met_b. intros E. apply andb_prop in E. destruct E as [E1 E2]. rewrite forallb_forall in E2. intros d v M.
    induction M as [|d m x _ IH S|d m k d' x _ IH Er L0]; [apply mem_In; auto| |].
    - specialize (E2 _ IH). apply andb_prop in E2. destruct E2 as [_ E2]. unfold nexts in E2. cbn [fst snd] in E2. apply subschema_subs in S.
      assert (G : forallb (fun p => mem p L) (map (pair d) (subs m)) = true).
      { destruct (assoc "$ref" m) as [y|]; [|exact E2]. destruct y; try exact E2. destruct (lead s); [|discriminate E2]. cbn [forallb] in E2. apply andb_prop in E2. apply E2. }
      rewrite forallb_forall in G. apply mem_In, G, in_map. auto.
    - specialize (E2 _ IH). apply andb_prop in E2. destruct E2 as [Ed E2]. unfold nexts in E2. cbn [fst snd] in E2. rewrite Er in E2.
      destruct (lead k) as [p|] eqn:El; [|discriminate E2]. apply andb_prop in Ed. destruct Ed as [Ed _]. apply draft_eqb_eq in Ed. cbn [fst] in Ed. subst d. rewrite (HT _ _ El _ _ L0). cbn [forallb] in E2. apply andb_prop in E2. apply mem_In. apply E2.
  Qed.
  Variable ce : cenv.
  Hypothesis Hlim : (0 <= e_ratlim (c_go ce))%Z.
  Hypothesis Hurl : forall s, url_b s = true -> u_parse ce s <> None.
  Lemma meets_right L v0 : met_b L (d0, v0) = true -> forall d v, meets T d0 v0 d v -> right ce d v.
  Proof.
    intros E d v M. pose proof (meets_collected L v0 E d v M) as H. unfold met_b in E. apply andb_prop in E. destruct E as [_ E].
    rewrite forallb_forall in E. specialize (E _ H). apply andb_prop in E. destruct E as [E _]. apply andb_prop in E. destruct E as [_ E]. unfold right_b in E. apply andb_prop in E. destruct E as [E1 E2].
    cbn [fst snd] in *. split.
    - apply moderate_checked in E1. eapply all_numbers_weak; [|exact E1]. intros s. apply moderate_weak. auto.
    - destruct v as [|b|t|f|t|l|o|o]; try discriminate E2; [|eapply shapes_checked; eauto]. intros ->. discriminate E2.
  Qed.
End Met.

(** ** Depth *)
Section Shallow.
  Variable lead : string -> option (draft * value).
  Variable T : string -> draft -> value -> Prop.
  Hypothesis HT : forall k q, lead k = Some q -> forall d x, T k d x -> (d, x) = q.
  Lemma ends_depth n : forall q, Checked.ends lead n q = true -> depth T n q.
  Proof.
    induction n as [|n IH]; intros q E; [discriminate E|]. cbn [Checked.ends] in E. destruct (next_here lead q) as [a|] eqn:En; [|discriminate E]. rewrite forallb_forall in E.
    cbn [depth]. intros p Hp. apply IH, E. destruct q as [d x]. assert (exists m, x = VMap m) as [m ->] by (inversion Hp; eauto). eapply hands_next; eauto.
  Qed.
  Lemma shallow_checked n L d s : guarded_b lead n L (d, s) = true -> shallow T n d s.
  Proof.
    intros E d' s' W. pose proof (within_collected lead T HT n L (d, s) E d' s' W) as H. unfold guarded_b in E. apply andb_prop in E. destruct E as [_ E].
    rewrite forallb_forall in E. specialize (E _ H). apply andb_prop in E. destruct E as [E _]. apply ends_depth. auto.
  Qed.
  Lemma reference_known n L d s d' m k : guarded_b lead n L (d, s) = true -> within T d s d' (VMap m) -> assoc "$ref" m = Some (VStr k) -> exists q, lead k = Some q.
  Proof.
    intros G W E. pose proof (within_collected lead T HT n L (d, s) G d' (VMap m) W) as H.
    unfold guarded_b in G. apply andb_prop in G. destruct G as [_ G]. rewrite forallb_forall in G. specialize (G _ H). apply andb_prop in G. destruct G as [_ G].
    unfold next_here in G. cbn [snd] in G. rewrite E in G. destruct (lead k) as [q|]; [eauto|discriminate G].
  Qed.
End Shallow.

(** ** The same document in two worlds *)
Fixpoint objects (v : value) : list (list (string * value)) :=
  match v with
  | VArr l => (fix go l := match l with [] => [] | x :: l' => objects x ++ go l' end) l
  | VMap m => m :: (fix go l := match l with [] => [] | (_, x) :: l' => objects x ++ go l' end) m
  | _ => []
  end.
Lemma inside_objects v m : inside v (VMap m) -> In m (objects v).
Proof.
  intros H. remember (VMap m) as y. induction H as [v|l x y H _ IH|m' k x y H _ IH]; subst; [left; auto| |]; specialize (IH eq_refl); cbn [objects].
  - induction l as [|z l IHl]; [destruct H|]. rewrite in_app_iff. destruct H as [->|H]; auto.
  - right. induction m' as [|[k' z] l IHl]; [destruct H|]. rewrite in_app_iff. destruct H as [E|H]; [injection E as -> ->; auto|auto].
Qed.

Section Agree.
  Variables parse parse' : string -> option string.
  Variables inherits inherits' : string -> string -> option string.
  Variable b : string.
  (** The identifiers say b again, and the references are resolved alike. *)
  Definition agrees (m : list (string * value)) : Prop :=
    (forall s, id_text m = Some s -> exists r, parse s = Some r /\ parse' s = Some r /\ inherits b r = Some b /\ inherits' b r = Some b) /\
    (forall s, In ("$ref", VStr s) m -> absolute parse inherits b s = absolute parse' inherits' b s).
  Lemma agrees_scope m : agrees m -> new_scope parse inherits b m = new_scope parse' inherits' b m /\ scope parse inherits b m = b /\ scope parse' inherits' b m = b.
  Proof.
    intros [H _]. unfold scope, new_scope. destruct (id_text m) as [s|]; [|auto]. destruct (H s eq_refl) as (r & -> & -> & -> & ->). auto.
  Qed.
  Lemma inside_in v m k x : inside v (VMap m) -> In (k, x) m -> inside v x.
  Proof.
    intros H Hx. remember (VMap m) as y. induction H as [v|l z y H _ IH|m' k' z y H _ IH]; subst.
    - eapply inside_map; [exact Hx|constructor].
    - eapply inside_arr; eauto.
    - eapply inside_map; eauto.
  Qed.
  Lemma resolve_agrees n : forall v, vsize v < n -> (forall m, inside v (VMap m) -> agrees m) -> resolve parse inherits b v = resolve parse' inherits' b v.
  Proof.
    induction n as [|n IH]; intros v Hn H; [lia|]. destruct v as [|c|t|f|t|l|m|o]; auto; cbn [resolve].
    - f_equal. apply map_ext_in. intros x Hx. apply IH; [apply vsize_item in Hx; cbn in *; lia|]. intros m Hm. apply H. eapply inside_arr; eauto.
    - assert (Am : agrees m) by (apply H; constructor). destruct (agrees_scope m Am) as (_ & -> & ->). f_equal. apply map_ext_in. intros [k x] Hx. cbn [fst snd]. f_equal.
      destruct (vsize_member m k x Hx) as [Hs _]. destruct (is_literal k); auto. destruct (is_schema_map k).
      + destruct x as [|c|t|f|t|l|m'|o]; auto. f_equal. apply map_ext_in. intros [k' x'] Hx'. cbn [fst snd]. f_equal. destruct (vsize_member m' k' x' Hx') as [Hs' _].
        apply IH; [cbn in *; lia|]. intros m2 H2. apply H. eapply inside_map; [exact Hx|]. eapply inside_map; eauto.
      + assert (HR : resolve parse inherits b x = resolve parse' inherits' b x).
        { apply IH; [cbn in *; lia|]. intros m2 H2. apply H. eapply inside_map; eauto. }
        destruct x as [|c|t|f|t|l|m'|o]; auto. destruct (String.eqb_spec k "$ref") as [->|]; auto. f_equal. apply Am. auto.
  Qed.
  Lemma ids_agrees n : forall v, vsize v < n -> (forall m, inside v (VMap m) -> agrees m) -> ids_of parse inherits b v = ids_of parse' inherits' b v.
  Proof.
    induction n as [|n IH]; intros v Hn H; [lia|]. destruct v as [|c|t|f|t|l|m|o]; auto; cbn [ids_of].
    - rewrite !flat_map_concat_map. f_equal. apply map_ext_in. intros x Hx. apply IH; [apply vsize_item in Hx; cbn in *; lia|]. intros m Hm. apply H. eapply inside_arr; eauto.
    - assert (Am : agrees m) by (apply H; constructor). destruct (agrees_scope m Am) as (-> & -> & ->).
      rewrite (resolve_agrees (S (vsize (VMap m))) (VMap m)) by (auto; lia). f_equal.
      rewrite !flat_map_concat_map. f_equal. apply map_ext_in. intros [k x] Hx. cbn [fst snd].
      destruct (vsize_member m k x Hx) as [Hs _]. destruct (is_literal k); auto. destruct (is_schema_map k).
      + destruct x as [|c|t|f|t|l|m'|o]; auto. rewrite !flat_map_concat_map. f_equal. apply map_ext_in. intros [k' x'] Hx'. cbn [fst snd]. destruct (vsize_member m' k' x' Hx') as [Hs' _].
        apply IH; [cbn in *; lia|]. intros m2 H2. apply H. eapply inside_map; [exact Hx|]. eapply inside_map; eauto.
      + apply IH; [cbn in *; lia|]. intros m2 H2. apply H. eapply inside_map; eauto.
  Qed.
End Agree.
