(** Computable conditions under which the hypotheses of the compile theorems
    hold; used by the examples. *)
From Verif Require Export LoadTotal.
From Coq Require Import Lia.
Open Scope string_scope.
Open Scope list_scope.
Open Scope nat_scope.

(** ** Equal documents *)

Fixpoint doc_eqb (a b : value) : bool :=
  match a, b with
  | VNil, VNil => true
  | VBool x, VBool y => Bool.eqb x y
  | VNum s, VNum t => String.eqb s t
  | VStr s, VStr t => String.eqb s t
  | VArr l, VArr k =>
      (fix go l k := match l, k with
        | [], [] => true
        | x :: l', y :: k' => (doc_eqb x y && go l' k')%bool
        | _, _ => false
        end) l k
  | VMap l, VMap k =>
      (fix go l k := match l, k with
        | [], [] => true
        | (n, x) :: l', (n', y) :: k' => (String.eqb n n' && doc_eqb x y && go l' k')%bool
        | _, _ => false
        end) l k
  | _, _ => false
  end.
Lemma doc_eqb_eq a : forall b, doc_eqb a b = true -> a = b.
Proof.
  induction a using value_ind'; intros w E; destruct w; try discriminate; auto.
  - f_equal. apply Bool.eqb_prop. auto.
  - f_equal. apply String.eqb_eq. auto.
  - f_equal. apply String.eqb_eq. auto.
  - f_equal. rename l0 into k. revert k E. induction l as [|x l IHl]; intros [|y k] E; try discriminate; auto.
    cbn [doc_eqb] in E. apply andb_prop in E. destruct E as [E1 E2]. inversion H as [|? ? H1 H2]; subst. f_equal; [apply H1; auto|apply IHl; auto].
  - f_equal. rename m0 into k. revert k E. induction m as [|[n x] l IHl]; intros [|[n' y] k] E; try discriminate; auto.
    cbn [doc_eqb] in E. apply andb_prop in E. destruct E as [E1 E2]. apply andb_prop in E1. destruct E1 as [E0 E1]. inversion H as [|? ? H1 H2]; subst.
    apply String.eqb_eq in E0. subst. f_equal; [f_equal; apply H1; auto|apply IHl; auto].
Qed.

(** ** Numbers *)

Section Numbers.
  Variable P : string -> bool.
  Fixpoint numbers_b (v : value) : bool :=
    match v with
    | VNum s => P s
    | VArr l => (fix go l := match l with [] => true | x :: l' => (numbers_b x && go l')%bool end) l
    | VMap l => (fix go l := match l with [] => true | (_, x) :: l' => (numbers_b x && go l')%bool end) l
    | VIMap _ => false
    | _ => true
    end.
  Lemma numbers_all (Q : string -> Prop) v : (forall s, P s = true -> Q s) -> numbers_b v = true -> all_numbers Q v.
  Proof.
    intros HP. induction v using value_ind'; intros E; try (constructor; auto; fail); try discriminate.
    - constructor. induction l as [|x l IHl]; [constructor|]. cbn [numbers_b] in E. apply andb_prop in E. destruct E. inversion H; subst. constructor; auto.
    - constructor. induction m as [|[n x] l IHl]; [constructor|]. cbn [numbers_b] in E. apply andb_prop in E. destruct E. inversion H; subst. constructor; auto.
  Qed.
End Numbers.
Definition moderate_b (lim : Z) (s : string) : bool := (json_number s && match rat_of lim s with Some _ => true | None => false end)%bool.
Lemma moderate_b_ok lim s : moderate_b lim s = true -> moderate lim s.
Proof.
  unfold moderate_b. intros E. apply andb_prop in E. destruct E as [E1 E2]. apply rat_of_moderate; auto. destruct (rat_of lim s); [eauto|discriminate].
Qed.
Lemma moderate_checked lim v : numbers_b (moderate_b lim) v = true -> all_numbers (moderate lim) v.
Proof. apply numbers_all. apply moderate_b_ok. Qed.
Definition ordinary_b (lim : Z) (v : value) : bool :=
  (numbers_b (moderate_b lim) v && match canon v with Some _ => true | None => false end)%bool.
Lemma ordinary_checked lim v : doc_ok v -> ordinary_b lim v = true -> ordinary lim v.
Proof.
  unfold ordinary_b. intros D E. apply andb_prop in E. destruct E as [E1 E2]. unfold ordinary. split; auto. split; [|apply moderate_checked; auto].
  apply canon_some; [apply D|]. destruct (canon v); [eauto|discriminate].
Qed.

(** ** References *)

Fixpoint mentioned (v : value) : list string :=
  match v with
  | VArr l => (fix go l := match l with [] => [] | x :: l' => mentioned x ++ go l' end) l
  | VMap l => (fix go l := match l with [] => [] | (n, x) :: l' =>
      (if String.eqb n "$ref" then match x with VStr k => [k] | _ => [] end else []) ++ mentioned x ++ go l' end) l
  | _ => []
  end.
Lemma mentions_mentioned v k : mentions v k -> In k (mentioned v).
Proof.
  induction 1 as [m k H|l x k H M IH|m n x k H M IH].
  - cbn [mentioned]. induction m as [|[n x] m IHm]; [destruct H|]. rewrite !in_app_iff. destruct H as [H|H]; [|auto]. injection H as -> ->. left. left. auto.
  - cbn [mentioned]. induction l as [|y l IHl]; [destruct H|]. rewrite in_app_iff. destruct H as [H|H]; [subst; auto|auto].
  - cbn [mentioned]. induction m as [|[n' y] m IHm]; [destruct H|]. rewrite !in_app_iff. destruct H as [H|H]; [injection H as -> ->; auto|auto].
Qed.

Fixpoint follow (ts : list string) (v : value) : option value :=
  match ts with
  | [] => Some v
  | t :: ts' => match v with VMap m => match assoc t m with Some x => follow ts' x | None => None end | _ => None end
  end.
Lemma follow_points ts : forall v x, follow ts v = Some x -> points ts v x.
Proof.
  induction ts as [|t ts IH]; intros v x E; cbn [follow] in E; [injection E as <-; constructor|].
  destruct v; try discriminate. destruct (assoc t m) as [y|] eqn:Ey; [|discriminate]. eapply points_member; eauto.
Qed.

Section Find.
  Variable ce : cenv.
  Variable p : pool.
  Definition find (r : string) : option spd :=
    match assoc r p with
    | Some e => Some e
    | None =>
        match assoc (u_strip ce r) p with
        | None => None
        | Some b =>
            let ts := map unescape_token (pointer_tokens (u_fragment ce r)) in
            if String.eqb (pointer_text ts) (u_fragment ce r)
            then match follow ts (sp_doc b) with Some x => Some (Spd x (sp_draft b)) | None => None end
            else None
        end
    end.
  Lemma find_locates r e : find r = Some e -> locates ce p r e.
  Proof.
    unfold find. destruct (assoc r p) as [e'|] eqn:E; [intros [= ->]; left; auto|].
    destruct (assoc (u_strip ce r) p) as [b|] eqn:Eb; [|discriminate].
    set (ts := map unescape_token (pointer_tokens (u_fragment ce r))). destruct (String.eqb_spec (pointer_text ts) (u_fragment ce r)) as [Et|]; [|discriminate].
    destruct (follow ts (sp_doc b)) as [x|] eqn:Ex; [|discriminate]. intros [= <-]. right. split; auto. exists b, ts, x. split; [auto|]. split; [auto|].
    split; [apply follow_points; auto|auto].
  Qed.
  Definition closed_b (v : value) : bool :=
    forallb (fun k => match u_parse ce k with Some r => match find r with Some _ => true | None => false end | None => true end) (mentioned v).
  Lemma closed_checked v : closed_b v = true -> closed_refs ce p v.
  Proof.
    unfold closed_b. rewrite forallb_forall. intros H k r M Er. specialize (H k (mentions_mentioned _ _ M)). rewrite Er in H.
    destruct (find r) as [e|] eqn:E; [|discriminate]. exists e. apply find_locates. auto.
  Qed.
  Definition lead (dflt : draft) (k : string) : option (draft * value) :=
    match u_parse ce k with
    | Some r => match find r with Some e => Some (match sp_draft e with Some d => d | None => dflt end, sp_doc e) | None => None end
    | None => None
    end.
  Lemma lead_only dflt k q : lead dflt k = Some q -> forall d x, leads_to ce p dflt k d x -> (d, x) = q.
  Proof.
    unfold lead. intros E d x HL. destruct (u_parse ce k) as [r|] eqn:Er; [|discriminate]. destruct (find r) as [e|] eqn:Ef; [|discriminate]. injection E as <-.
    assert (L2 : leads_to ce p dflt k (match sp_draft e with Some d => d | None => dflt end) (sp_doc e)) by (exists r, e; split; [auto|split; [apply find_locates; auto|auto]]).
    destruct (leads_to_fun ce p dflt _ _ _ _ _ HL L2) as [-> ->]. reflexivity.
  Qed.
End Find.

(** ** Guarded and regular schemas *)

Definition vals (v : value) : list value := match v with VArr l => l | VMap l => map snd l | _ => [] end.
Definition at_key (m : list (string * value)) (k : string) : list value := match assoc k m with Some x => [x] | None => [] end.
Definition heres (m : list (string * value)) : list value :=
  flat_map (at_key m) ["not"; "if"; "then"; "else"] ++
  flat_map (fun k => flat_map vals (at_key m k)) ["allOf"; "anyOf"; "oneOf"; "dependencies"].
Definition others (m : list (string * value)) : list value :=
  flat_map (at_key m) ["items"; "additionalItems"; "contains"; "additionalProperties"; "propertyNames"] ++
  flat_map (fun k => flat_map vals (at_key m k)) ["items"; "properties"; "patternProperties"].
Lemma in_at_key m k x : assoc k m = Some x -> In x (at_key m k).
Proof. intros E. unfold at_key. rewrite E. left. auto. Qed.
Lemma in_at_elements m k y x : assoc k m = Some y -> In x (vals y) -> In x (flat_map vals (at_key m k)).
Proof. intros E H. apply in_flat_map. exists y. split; auto. apply in_at_key. auto. Qed.
Lemma part_here_heres d m x : part_here d m x -> In x (heres m).
Proof.
  unfold heres. rewrite in_app_iff, !in_flat_map. intros [y E|k y _ Hk E|k l y Hk E Hl|ds n y E Hd].
  - left. exists "not". split; [simpl; auto|apply in_at_key; auto].
  - left. exists k. split; [simpl in *; tauto|apply in_at_key; auto].
  - right. exists k. split; [simpl in *; tauto|eapply in_at_elements; eauto].
  - right. exists "dependencies". split; [simpl; auto|eapply in_at_elements; eauto]. cbn [vals]. change y with (snd (n, y)). apply in_map. auto.
Qed.
Lemma part_parts d m x : part d m x -> In x (heres m ++ others m).
Proof.
  rewrite in_app_iff. intros [H|[H|[H|H]]]; [left; eapply part_here_heres; eauto|right; unfold others; rewrite in_app_iff, !in_flat_map ..].
  - destruct H as [k y Hk E|y _ E|l y E Hl].
    + left. exists k. split; [simpl in *; tauto|apply in_at_key; auto].
    + left. exists "contains". split; [simpl; auto|apply in_at_key; auto].
    + right. exists "items". split; [simpl; auto|eapply in_at_elements; eauto].
  - destruct H as [y E|k ms n y Hk E Hl].
    + left. exists "additionalProperties". split; [simpl; auto 6|apply in_at_key; auto].
    + right. exists k. split; [simpl in *; tauto|eapply in_at_elements; eauto]. cbn [vals]. change y with (snd (n, y)). apply in_map. auto.
  - destruct H as [_ E]. left. exists "propertyNames". split; [simpl; auto 6|apply in_at_key; auto].
Qed.

Definition is_empty (x : option value) : bool := match x with Some (VArr []) => true | _ => false end.
Definition regular_b (lim : Z) (m : list (string * value)) : bool :=
  (negb (is_empty (assoc "type" m)) && negb (is_empty (assoc "enum" m)) && negb (is_empty (assoc "anyOf" m)) && negb (is_empty (assoc "oneOf" m)) &&
   negb (is_empty (assoc "items" m)) &&
   forallb (fun k => match assoc k m with Some (VNum s) => moderate_b lim s | _ => true end) ["exclusiveMinimum"; "exclusiveMaximum"])%bool.
Lemma not_empty x : negb (is_empty x) = true -> x <> Some (VArr []).
Proof. intros E ->. discriminate. Qed.
Lemma regular_checked lim m : regular_b lim m = true -> regular lim m.
Proof.
  unfold regular_b. rewrite !andb_true_iff. intros (((((H1 & H2) & H3) & H4) & H5) & H6). apply not_empty in H1, H2, H3, H4, H5.
  cbn [forallb] in H6. rewrite !andb_true_iff in H6. destruct H6 as (H6 & H7 & _).
  unfold regular. repeat match goal with |- _ /\ _ => apply conj end; auto.
  - intros E. contradiction.
  - intros s E. rewrite E in H6. apply moderate_b_ok. auto.
  - intros s E. rewrite E in H7. apply moderate_b_ok. auto.
Qed.

Definition draft_eqb (a b : draft) : bool :=
  match a, b with Draft4, Draft4 | Draft6, Draft6 | Draft7, Draft7 | Hybrid, Hybrid => true | _, _ => false end.
Lemma draft_eqb_eq a b : draft_eqb a b = true -> a = b.
Proof. destruct a, b; simpl; congruence. Qed.
Definition mem (q : draft * value) (L : list (draft * value)) : bool :=
  existsb (fun p => (draft_eqb (fst q) (fst p) && doc_eqb (snd q) (snd p))%bool) L.
Lemma mem_In q L : mem q L = true -> In q L.
Proof.
  unfold mem. rewrite existsb_exists. intros ([d x] & H & E). apply andb_prop in E. destruct E as [E1 E2]. destruct q as [d' x']. cbn [fst snd] in *.
  apply draft_eqb_eq in E1. apply doc_eqb_eq in E2. subst. auto.
Qed.

Section Closure.
  Variable lead : string -> option (draft * value).
  Definition next_here (q : draft * value) : option (list (draft * value)) :=
    match snd q with
    | VMap m => match assoc "$ref" m with
                | Some (VStr r) => match lead r with Some p => Some [p] | None => None end
                | _ => Some (map (pair (fst q)) (heres m))
                end
    | _ => Some []
    end.
  Definition next_other (q : draft * value) : list (draft * value) :=
    match snd q with
    | VMap m => match assoc "$ref" m with
                | Some (VStr r) => []
                | _ => map (pair (fst q)) (others m)
                end
    | _ => []
    end.
  (** Collect what is within q. *)
  Fixpoint collect (n : nat) (todo L : list (draft * value)) : list (draft * value) :=
    match n, todo with
    | O, _ => L
    | _, [] => L
    | S n', q :: todo' =>
        if mem q L then collect n' todo' L
        else collect n' (match next_here q with Some a => a | None => [] end ++ next_other q ++ todo') (q :: L)
    end.
  (** The instance is handed on at most n times from q. *)
  Fixpoint ends (n : nat) (q : draft * value) : bool :=
    match n with
    | O => false
    | S n' => match next_here q with Some a => forallb (ends n') a | None => false end
    end.
  Definition guarded_b (n : nat) (L : list (draft * value)) (q : draft * value) : bool :=
    (mem q L && forallb (fun q => ends n q && match next_here q with Some a => forallb (fun p => mem p L) (a ++ next_other q) | None => false end) L)%bool.
  Definition regulars_b (lim : Z) (L : list (draft * value)) : bool :=
    forallb (fun q => match snd q with VMap m => match assoc "$ref" m with None => regular_b lim m | _ => true end | _ => true end) L.

  Variable T : string -> draft -> value -> Prop.
  Hypothesis HT : forall k q, lead k = Some q -> forall d x, T k d x -> (d, x) = q.
  Lemma hands_next d m q a : hands_on T q (d, VMap m) -> next_here (d, VMap m) = Some a -> In q a.
  Proof.
    unfold next_here. cbn [fst snd]. intros H. inversion H as [? ? r ? ? Er HR|? ? x Nr P]; subst.
    - rewrite Er. destruct (lead r) as [p|] eqn:E; [|discriminate]. intros [= <-]. left. symmetry. eapply HT; eauto.
    - intros E. assert (a = map (pair d) (heres m)).
      { destruct (assoc "$ref" m) as [y|]; [|congruence]. destruct y; try congruence. destruct (Nr s eq_refl). }
      subst. apply in_map. eapply part_here_heres; eauto.
  Qed.
  Lemma ends_acc n : forall q, ends n q = true -> Acc (hands_on T) q.
  Proof.
    induction n as [|n IH]; intros q E; [discriminate|]. cbn [ends] in E. destruct (next_here q) as [a|] eqn:En; [|discriminate]. rewrite forallb_forall in E.
    constructor. intros p Hp. apply IH, E. destruct q as [d x]. assert (exists m, x = VMap m) as [m ->] by (inversion Hp; eauto). eapply hands_next; eauto.
  Qed.
  Lemma within_collected n L q : guarded_b n L q = true -> forall d s, within T (fst q) (snd q) d s -> In (d, s) L.
  Proof.
    unfold guarded_b. intros E. apply andb_prop in E. destruct E as [E1 E2]. rewrite forallb_forall in E2. destruct q as [d0 s0]. cbn [fst snd]. intros d s W.
    induction W as [|d m x W IH Nr P|d m r d' x W IH Er HR]; [apply mem_In; auto| |].
    - specialize (E2 _ IH). apply andb_prop in E2. destruct E2 as [_ E2]. unfold next_here, next_other in E2. cbn [fst snd] in E2.
      assert (G : forallb (fun p => mem p L) (map (pair d) (heres m) ++ map (pair d) (others m)) = true).
      { destruct (assoc "$ref" m) as [y|]; [|exact E2]. destruct y; try exact E2. destruct (Nr s eq_refl). }
      rewrite <- map_app in G. rewrite forallb_forall in G. apply mem_In, G, in_map. eapply part_parts; eauto.
    - specialize (E2 _ IH). apply andb_prop in E2. destruct E2 as [_ E2]. unfold next_here, next_other in E2. cbn [fst snd] in E2. rewrite Er in E2.
      destruct (lead r) as [p|] eqn:El; [|discriminate]. rewrite (HT _ _ El _ _ HR). cbn [app forallb] in E2. rewrite andb_true_r in E2. apply mem_In. auto.
  Qed.
  Lemma guarded_checked n L d s : guarded_b n L (d, s) = true -> guarded T d s.
  Proof.
    intros E d' s' W. pose proof (within_collected n L (d, s) E d' s' W) as H. unfold guarded_b in E. apply andb_prop in E. destruct E as [_ E].
    rewrite forallb_forall in E. specialize (E _ H). apply andb_prop in E. destruct E as [E _]. eapply ends_acc; eauto.
  Qed.
  Lemma regulars_checked n L d s lim : guarded_b n L (d, s) = true -> regulars_b lim L = true ->
    forall d' m, within T d s d' (VMap m) -> assoc "$ref" m = None -> regular lim m.
  Proof.
    intros E R d' m W N. pose proof (within_collected n L (d, s) E d' _ W) as H. unfold regulars_b in R. rewrite forallb_forall in R. specialize (R _ H).
    cbn [snd] in R. rewrite N in R. apply regular_checked. auto.
  Qed.
End Closure.

(** ** A schema text checked as a whole *)

Section Text.
  Variable w : world.
  Notation ce := (cenv_of w NewSchemaLoader).
  Notation lim := (e_ratlim (w_go w)).
  Definition the_doc (s : string) : value := match decode_use_number s with Some v => v | None => VNil end.
  Definition known (doc : value) : pool := known_documents w NewSchemaLoader doc.
  Definition doc_lead (doc : value) : string -> option (draft * value) := lead ce (known doc) (root_draft w NewSchemaLoader doc).
  Definition resolved (doc : value) : value := resolve (w_parse w) (w_inherits w) "" doc.
  Definition nodup_b (l : list string) : bool :=
    (fix go l := match l with [] => true | x :: l' => (negb (existsb (String.eqb x) l') && go l')%bool end) l.
  Lemma nodup_b_ok l : nodup_b l = true -> NoDup l.
  Proof.
    induction l as [|x l IH]; [constructor|]. cbn [nodup_b]. intros E. apply andb_prop in E. destruct E as [E1 E2]. constructor; auto.
    intros H. apply Bool.negb_true_iff in E1. assert (X : existsb (String.eqb x) l = true) by (apply existsb_exists; exists x; split; [auto|apply String.eqb_refl]). congruence.
  Qed.
  Definition text_checked (n : nat) (s : string) : bool :=
    let doc := the_doc s in
    let L := collect (doc_lead doc) n [(root_draft w NewSchemaLoader doc, resolved doc)] [] in
    (match decode_use_number s with Some _ => true | None => false end &&
     numbers_b (moderate_b lim) doc && nodup_b (map fst (ids_of (w_parse w) (w_inherits w) "" doc)) &&
     closed_b ce (known doc) (resolved doc) &&
     guarded_b (doc_lead doc) n L (root_draft w NewSchemaLoader doc, resolved doc) && regulars_b lim L)%bool.

  Theorem text_checked_ok n s : text_checked n s = true ->
    let doc := the_doc s in let d := root_draft w NewSchemaLoader doc in let T := leads_to ce (known doc) d in
    decode_use_number s = Some doc /\ all_numbers (moderate lim) doc /\ NoDup (map fst (ids_of (w_parse w) (w_inherits w) "" doc)) /\
    closed_refs ce (known doc) (resolved doc) /\ guarded T d (resolved doc) /\
    forall d' m, within T d (resolved doc) d' (VMap m) -> assoc "$ref" m = None -> regular lim m.
  Proof.
    unfold text_checked. rewrite !andb_true_iff. intros (((((H1 & H2) & H3) & H4) & H5) & H6). cbv zeta.
    assert (HL : forall k q, doc_lead (the_doc s) k = Some q -> forall d x, leads_to ce (known (the_doc s)) (root_draft w NewSchemaLoader (the_doc s)) k d x -> (d, x) = q).
    { intros k q E. eapply lead_only. exact E. }
    split; [unfold the_doc; destruct (decode_use_number s); [auto|discriminate]|]. split; [apply moderate_checked; auto|]. split; [apply nodup_b_ok; auto|].
    split; [apply closed_checked; auto|]. split; [eapply guarded_checked; eauto|eapply regulars_checked; eauto].
  Qed.
End Text.
