(** Compilation when every reference leads to a known document: it returns,
    whatever the references look like. *)
From Verif Require Export CompileTotal.
From Coq Require Import Lia.
Open Scope nat_scope.

Lemma inside_trans a b c : inside a b -> inside b c -> inside a c.
Proof. induction 1; intros H'; auto; [eapply inside_arr|eapply inside_map]; eauto. Qed.
Lemma inside_member m k x : assoc k m = Some x -> inside (VMap m) x.
Proof. intros E. apply assoc_In in E. eapply inside_map; eauto. constructor. Qed.
Lemma inside_entry m k ms e x : assoc k m = Some (VMap ms) -> In (e, x) ms -> inside (VMap m) x.
Proof. intros E H. eapply inside_trans; [eapply inside_member; eauto|]. eapply inside_map; eauto. constructor. Qed.
Lemma inside_elem m k l x : assoc k m = Some (VArr l) -> In x l -> inside (VMap m) x.
Proof. intros E H. eapply inside_trans; [eapply inside_member; eauto|]. eapply inside_arr; eauto. constructor. Qed.
Lemma inside_subschema d m x : subschema d m x -> inside (VMap m) x.
Proof. destruct 1; eauto using inside_member, inside_entry, inside_elem. Qed.
Lemma inside_size a b : inside a b -> vsize b <= vsize a.
Proof. induction 1 as [|l x y H _ IH|m k x y H _ IH]; auto; [apply vsize_item in H|apply vsize_member in H]; lia. Qed.
Lemma inside_doc_ok a b : inside a b -> doc_ok a -> doc_ok b.
Proof.
  induction 1 as [|l x y H _ IH|m k x y H _ IH]; auto; intros D; apply IH.
  - apply doc_ok_arr in D. rewrite Forall_forall in D. auto.
  - apply doc_ok_map in D. destruct D as [_ D]. rewrite Forall_forall in D. apply (D _ H).
Qed.
Lemma inside_mentions a b k : inside a b -> mentions b k -> mentions a k.
Proof. induction 1; auto; intros M; [eapply mentions_arr|eapply mentions_map]; eauto. Qed.
Lemma inside_numbers P a b : inside a b -> all_numbers P a -> all_numbers P b.
Proof.
  induction 1 as [|l x y H _ IH|m k x y H _ IH]; auto; intros D; apply IH; inversion D as [| | | | |? F|? F]; subst; rewrite Forall_forall in F; auto. apply (F _ H).
Qed.
Lemma inside_points ts a b : points ts a b -> inside a b.
Proof.
  induction 1 as [v|t ts m x y E _ IH|t ts l n x y _ _ E _ IH]; [constructor| |].
  - eapply inside_trans; [eapply inside_member; eauto|auto].
  - eapply inside_arr; [eapply nth_error_In; eauto|auto].
Qed.

Fixpoint max_size (l : list value) : nat := match l with [] => 0 | v :: l' => Nat.max (vsize v) (max_size l') end.
Lemma max_size_le l v : In v l -> vsize v <= max_size l.
Proof. induction l as [|x l IH]; intros []; cbn [max_size]; [subst; lia|]. apply IH in H. lia. Qed.

(** The texts of all references in a value. *)
Fixpoint ref_texts (v : value) : list string :=
  match v with
  | VArr l => (fix go l := match l with [] => [] | x :: l' => ref_texts x ++ go l' end) l
  | VMap l => (fix go l := match l with [] => [] | (n, x) :: l' =>
      (if String.eqb n "$ref" then match x with VStr k => [k] | _ => [] end else []) ++ ref_texts x ++ go l' end) l
  | _ => []
  end.
Lemma mentions_texts v k : mentions v k -> In k (ref_texts v).
Proof.
  induction 1 as [m k H|l x k H M IH|m n x k H M IH].
  - cbn [ref_texts]. induction m as [|[n x] m IHm]; [destruct H|]. rewrite !in_app_iff. destruct H as [H|H]; [|auto]. injection H as -> ->. left. left. auto.
  - cbn [ref_texts]. induction l as [|y l IHl]; [destruct H|]. rewrite in_app_iff. destruct H as [H|H]; [subst; auto|auto].
  - cbn [ref_texts]. induction m as [|[n' y] m IHm]; [destruct H|]. rewrite !in_app_iff. destruct H as [H|H]; [injection H as -> ->; auto|auto].
Qed.

Section Known.
  Variable ce : cenv.
  Variable p0 : pool.
  Variable d0 : draft.
  Variable v0 : value.
  Notation lim := (e_ratlim (c_go ce)).
  Notation re := (fun p => e_re_ok (c_go ce) p = true).
  Notation url := (fun s => u_parse ce s <> None).
  Notation mod_ := (all_numbers (moderate lim)).
  Hypothesis Hinh : forall b s r, u_parse ce s = Some r -> u_inherits ce b r <> None.
  Hypothesis Hp : forall r e, assoc r p0 = Some e -> doc_ok (sp_doc e) /\ closed_refs ce p0 (sp_doc e).
  Hypothesis Hv : doc_ok v0 /\ closed_refs ce p0 v0.

  (** The documents at hand, and the references in them. *)
  Definition at_hand : list value := v0 :: map (fun e => sp_doc (snd e)) p0.
  Definition ref_urls : list string :=
    flat_map (fun v => flat_map (fun k => match u_parse ce k with Some r => [r] | None => [] end) (ref_texts v)) at_hand.
  Definition fuel_bound : nat := length ref_urls * S (max_size at_hand) + vsize v0.

  Notation met := (meets (leads_to ce p0) d0 v0).
  Lemma met_inside d v : met d v -> exists x, In x at_hand /\ inside x v /\ doc_ok x /\ closed_refs ce p0 x.
  Proof.
    induction 1 as [|d m x _ IH S|d m k d' x _ IH E L].
    - exists v0. split; [left; auto|]. split; [constructor|auto].
    - destruct IH as (y & H1 & H2 & H3). exists y. split; auto. split; auto. eapply inside_trans; eauto. eapply inside_subschema; eauto.
    - destruct L as (r & e & _ & L & -> & _). destruct L as [L|(_ & b & ts & x & L & _ & P & ->)].
      + exists (sp_doc e). split; [|split; [constructor|apply (Hp _ _ L)]]. right. apply assoc_In in L. apply in_map_iff. exists (r, e). auto.
      + exists (sp_doc b). split; [|split; [eapply inside_points; eauto|apply (Hp _ _ L)]]. right. apply assoc_In in L. apply in_map_iff. eexists (_, b). split; [|exact L]. auto.
  Qed.
  Lemma GetDocument_found o r e s : known_pool ce p0 (st_pool s) -> locates ce p0 r e ->
    exists s', GetDocument ce o r s = COk e s' /\ known_pool ce p0 (st_pool s') /\ st_refs s' = st_refs s.
  Proof.
    intros K L. assert (G : exists dsp s', GetDocument ce o r s = COk dsp s' /\ st_refs s' = st_refs s).
    { destruct K as [K1 K2]. unfold GetDocument, cbind, get_pool. destruct (assoc r (st_pool s)) as [e'|] eqn:Er; [cbn; eauto|].
      destruct L as [L|(_ & b & ts & x & Hb & Hf & Hx & He)]; [apply K1 in L; congruence|]. rewrite (K1 _ _ Hb), (pointer_follows _ _ _ _ Hf Hx). cbn. eauto. }
    destruct G as (dsp & s' & E & R). exists s'. destruct (GetDocument_known ce p0 o r s dsp s' K (ex_intro _ e L) E) as [K' L'].
    rewrite (locates_fun ce p0 r e dsp L L'). auto.
  Qed.

  Theorem parse_known fuel o docref p : fair o -> fuel_bound < fuel -> known_pool ce p0 p ->
    match parse ce fuel o docref d0 v0 (CState [] [] p []) with
    | COk _ _ => mod_ v0 -> read_ok re url d0 v0
    | CErr _ _ => ~ forall d v, met d v -> right ce d v
    | CPanic => ~ forall d v, met d v -> tame ce v
    | CNoFuel => False
    end.
  Proof.
    intros F Hf KP.
    pose proof (parse_total ce Hinh met ref_urls (max_size at_hand) (known_pool ce p0) (~ forall d v, met d v -> right ce d v) (~ forall d v, met d v -> tame ce v) False) as T.
    specialize (T (fun d v H => match met_inside d v H with ex_intro _ x (conj H1 (conj H2 (conj H3 _))) => conj (inside_doc_ok _ _ H2 H3) (or_intror (Nat.le_trans _ _ _ (inside_size _ _ H2) (max_size_le _ _ H1))) end)).
    specialize (T (fun d m x H S => meets_sub _ d0 v0 d m x H S)).
    specialize (T (fun d v H N A => N (A d v H)) (fun d v H N A => N (A d v H))).
    match type of T with ?A -> _ => assert (HW : A) end.
    { intros d m k r H Er Eu. destruct (met_inside _ _ H) as (x & H1 & H2 & H3 & H4).
      pose proof (inside_mentions _ _ _ H2 (mentions_assoc _ _ Er)) as Mk. split.
      - right. unfold ref_urls. apply in_flat_map. exists x. split; auto. apply in_flat_map. exists k. split; [apply mentions_texts; auto|]. rewrite Eu. left. auto.
      - intros n o' F' s Hps Hl. destruct (H4 _ _ Mk Eu) as [e L]. destruct (GetDocument_found o' r e s Hps L) as (s' & -> & K' & R').
        split; auto. split; [unfold left in *; rewrite R'; auto|]. eapply meets_ref; eauto. exists r, e. auto. }
    specialize (T HW fuel o docref d0 v0 p F KP (meets_root _ _ _) (or_intror Hf)).
    destruct (parse _ _ _ _ _ _ _) as [x s'|e s'| |]; auto; apply T.
  Qed.

  (** Without references, what has been read is the whole document. *)
  Lemma read_well_formed d v : (forall k, ~ mentions v k) -> read_ok re url d v -> well_formed re url same d v.
  Proof.
    intros N H. revert N. induction H as [b H|m k H E _ _|m H H1 IH]; intros N.
    - constructor. auto.
    - destruct (N k). apply mentions_assoc. auto.
    - constructor; auto. intros x S. apply IH; auto. intros k Mk. apply (N k). eapply inside_mentions; [eapply inside_subschema; eauto|auto].
  Qed.
  Lemma well_formed_met : (forall k, ~ mentions v0 k) -> mod_ v0 -> well_formed re url same d0 v0 -> forall d v, met d v -> right ce d v.
  Proof.
    intros N Hm WF.
    assert (G : forall d v, met d v -> d = d0 /\ inside v0 v /\ well_formed re url same d0 v).
    { induction 1 as [|d m x _ IH S|d m k d' x _ IH E L].
      - split; auto. split; [constructor|auto].
      - destruct IH as (-> & H1 & H2). split; auto. split; [eapply inside_trans; eauto; eapply inside_subschema; eauto|]. inversion H2; subst. auto.
      - destruct IH as (-> & H1 & H2). destruct (N k). eapply inside_mentions; eauto. apply mentions_assoc. auto. }
    intros d v H. destruct (G _ _ H) as (-> & H1 & H2). split; [eapply inside_numbers; eauto|]. inversion H2; subst; auto.
  Qed.
End Known.
