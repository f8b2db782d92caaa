(** Documents in the pool are documents a decoder can produce, and stay so when
    references are made absolute. *)
From Verif Require Export CompileInv ModelLoader.
Open Scope nat_scope.

Lemma doc_ok_map_iff m : doc_ok (VMap m) <->
  NoDup (map fst m) /\ Forall (fun e => utf8_text (fst e) /\ doc_ok (snd e)) m.
Proof.
  split.
  - intros [H P]. inversion H as [| | | | | |? N F]; subst. rewrite plain_map in P. split; auto. rewrite Forall_forall in *.
    intros e He. specialize (F e He). specialize (P e He). unfold doc_ok. tauto.
  - intros [N F]. split.
    + apply std_map; auto. eapply Forall_impl; [|exact F]. intros a [H1 [H2 _]]. auto.
    + apply plain_map. eapply Forall_impl; [|exact F]. intros a [_ [_ H]]. auto.
Qed.
Lemma doc_ok_arr_iff l : doc_ok (VArr l) <-> Forall doc_ok l.
Proof.
  split; [apply doc_ok_arr|]. intros F. split; [constructor|apply plain_arr]; eapply Forall_impl; try exact F; intros a [H1 H2]; auto.
Qed.
Lemma doc_ok_aset k v m : utf8_text k -> doc_ok v -> doc_ok (VMap m) -> doc_ok (VMap (aset k v m)).
Proof.
  rewrite !doc_ok_map_iff. intros Hk Hv [N F]. split; [apply aset_NoDup; auto|apply aset_Forall; auto].
Qed.
Lemma doc_ok_entry m k x : doc_ok (VMap m) -> In (k, x) m -> utf8_text k /\ doc_ok x.
Proof. rewrite doc_ok_map_iff, Forall_forall. intros [_ F] H. apply (F _ H). Qed.
Lemma doc_ok_assoc m k x : doc_ok (VMap m) -> assoc k m = Some x -> utf8_text k /\ doc_ok x.
Proof. intros H E. eapply doc_ok_entry; eauto. apply assoc_In. auto. Qed.
Lemma decode_doc_ok t v : decode_use_number t = Some v -> doc_ok v.
Proof. intros H. split; [eapply decode_std; eauto|]. apply (decode_decoded _ _ H). Qed.
Lemma doc_ok_perm m m' : Permutation m m' -> doc_ok (VMap m) -> Forall (fun e => utf8_text (fst e) /\ doc_ok (snd e)) m'.
Proof. intros HP. rewrite doc_ok_map_iff. intros [_ F]. eapply Permutation_Forall; eauto. Qed.

(** The URL functions turn text into text. *)
Definition urls_text (ce : cenv) : Prop :=
  (forall s r, utf8_text s -> u_parse ce s = Some r -> utf8_text r) /\
  (forall b r a, utf8_text b -> utf8_text r -> u_inherits ce b r = Some a -> utf8_text a) /\
  (forall r, utf8_text r -> utf8_text (u_strip ce r)).

Section Docs.
  Variable ce : cenv.
  Variable pd : draft -> Prop.
  Hypothesis Htext : urls_text ce.

  Definition spd_ok (e : spd) : Prop := doc_ok (sp_doc e) /\ forall x, sp_draft e = Some x -> pd x.
  Definition dr_ok (dr : option draft) : Prop := forall x, dr = Some x -> pd x.

  Lemma pool_ok_aset p r e : pool_ok pd p -> spd_ok e -> pool_ok pd (aset r e p).
  Proof.
    intros H He k x E. rewrite assoc_aset in E. destruct (String.eqb k r); [injection E as <-; auto|eapply H; eauto].
  Qed.

  Section Node.
    Variable rec : oracle -> value -> string -> option draft -> pool -> out prr.
    Hypothesis Hrec : forall o v b d p r, fair o -> utf8_text b -> doc_ok v -> dr_ok d -> pool_ok pd p -> rec o v b d p = Ok r ->
      doc_ok (pr_doc r) /\ pool_ok pd (pr_pool r).

    Lemma prr_list_docs o b d l : fair o -> utf8_text b -> dr_ok d -> Forall doc_ok l -> forall i p q, pool_ok pd p ->
      prr_list rec o i b d l p = Ok q -> Forall doc_ok (fst q) /\ pool_ok pd (snd q).
    Proof.
      intros F B D. induction 1 as [|x l Hx _ IH]; intros i p q Hp E; cbn [prr_list] in E.
      - injection E as <-. simpl. auto.
      - apply obind_ok in E. destruct E as (r & Er & E). apply obind_ok in E. destruct E as (q' & Eq & E). injection E as <-.
        apply Hrec in Er; auto; [|apply shift_fair; auto]. destruct Er as [R1 R2]. apply IH in Eq; auto. destruct Eq. simpl. auto.
    Qed.
    Lemma prr_map_docs o b d es : fair o -> utf8_text b -> dr_ok d -> Forall (fun e => utf8_text (fst e) /\ doc_ok (snd e)) es ->
      forall i m p q, pool_ok pd p -> doc_ok (VMap m) ->
      prr_map rec o i b d es m p = Ok q -> doc_ok (VMap (fst q)) /\ pool_ok pd (snd q).
    Proof.
      intros F B D. induction 1 as [|[k x] es [Hk Hx] _ IH]; intros i m p q Hp Hm E; cbn [prr_map] in E.
      - injection E as <-. auto.
      - apply obind_ok in E. destruct E as (r & Er & E). apply Hrec in Er; auto; [|apply shift_fair; auto]. destruct Er as [R1 R2].
        apply IH in E; auto. apply doc_ok_aset; auto.
    Qed.
    Lemma prr_member_docs o b d k x p q : fair o -> utf8_text b -> dr_ok d -> doc_ok x -> pool_ok pd p ->
      prr_member rec o b d k x p = Ok q -> doc_ok (fst q) /\ pool_ok pd (snd q).
    Proof.
      intros F B D Hx Hp. unfold prr_member. destruct (literal_key k); [intros [= <-]; auto|]. destruct (map_key k).
      - destruct x; try (intros [= <-]; auto; fail). intros E. apply obind_ok in E. destruct E as (r & Er & E). injection E as <-.
        eapply prr_map_docs; [| | | | | |exact Er]; auto; [apply shift_fair; auto|].
        eapply doc_ok_perm; [apply pick_perm, shift_fair; auto|auto].
      - intros E. apply obind_ok in E. destruct E as (r & Er & E). injection E as <-. eapply Hrec; eauto.
    Qed.
    Lemma prr_members_docs o b d es : fair o -> utf8_text b -> dr_ok d -> Forall (fun e => utf8_text (fst e) /\ doc_ok (snd e)) es ->
      forall i m p q, pool_ok pd p -> doc_ok (VMap m) ->
      prr_members rec o i b d es m p = Ok q -> doc_ok (VMap (fst q)) /\ pool_ok pd (snd q).
    Proof.
      intros F B D. induction 1 as [|[k x] es [Hk Hx] _ IH]; intros i m p q Hp Hm E; cbn [prr_members] in E.
      - injection E as <-. auto.
      - apply obind_ok in E. destruct E as (r & Er & E). apply prr_member_docs in Er; auto; [|apply shift_fair; auto]. destruct Er as [R1 R2].
        apply IH in E; auto. apply doc_ok_aset; auto.
    Qed.
    Lemma absolute_ref_docs b m m1 : utf8_text b -> doc_ok (VMap m) -> absolute_ref ce b m = Ok m1 -> doc_ok (VMap m1).
    Proof.
      intros B Hm. unfold absolute_ref. destruct (assoc "$ref" m) as [v|] eqn:Ev; [|intros [= <-]; auto].
      intros E. apply obind_ok in E. destruct E as (k & Ek & E). destruct k; [|injection E as <-; auto]. simpl in E. destruct v; try discriminate.
      destruct (u_parse ce s) as [r|] eqn:Ep; [|injection E as <-; auto]. destruct (u_inherits ce b r) as [a|] eqn:Ei; injection E as <-; auto.
      destruct (doc_ok_assoc _ _ _ Hm Ev) as [Hk [Hs _]]. inversion Hs as [| | | |? Ht| |]; subst. destruct Htext as (T1 & T2 & _).
      apply doc_ok_aset; auto. split; auto. constructor. eapply T2; [| |exact Ei]; eauto.
    Qed.
    Lemma declared_id_docs b m r : utf8_text b -> doc_ok (VMap m) -> declared_id ce b m = Ok (Some r) -> utf8_text r.
    Proof.
      intros B Hm. unfold declared_id. destruct (assoc _ m) as [v|] eqn:Ev; [|discriminate].
      intros E. apply obind_ok in E. destruct E as (k & Ek & E). destruct k; [|discriminate]. simpl in E. destruct v; try discriminate.
      destruct (u_parse ce s) as [t|] eqn:Ep; [|discriminate]. destruct (u_inherits ce b t) as [a|] eqn:Ei; [|discriminate]. injection E as <-.
      destruct (doc_ok_assoc _ _ _ Hm Ev) as [Hk [Hs _]]. inversion Hs as [| | | |? Ht| |]; subst. destruct Htext as (T1 & T2 & _).
      eapply T2; [| |exact Ei]; eauto.
    Qed.
    Lemma parseReferencesNode_docs o v b d p r : fair o -> utf8_text b -> doc_ok v -> dr_ok d -> pool_ok pd p ->
      parseReferencesNode ce rec o v b d p = Ok r -> doc_ok (pr_doc r) /\ pool_ok pd (pr_pool r).
    Proof.
      intros F B Hv D Hp. unfold parseReferencesNode. destruct v; try (intros [= <-]; simpl; auto; fail).
      - intros E. apply obind_ok in E. destruct E as (q & Eq & E). injection E as <-. simpl. rewrite doc_ok_arr_iff in *.
        eapply prr_list_docs; eauto.
      - intros E. apply obind_ok in E. destruct E as (lid & Ei & E). destruct lid as [id|].
        + apply declared_id_docs in Ei; auto. destruct (assoc id p) eqn:Ep; [injection E as <-; simpl; auto|].
          apply obind_ok in E. destruct E as (m1 & Em & E). apply absolute_ref_docs in Em; auto. apply obind_ok in E. destruct E as (q & Eq & E). injection E as <-. simpl.
          eapply prr_members_docs in Eq; auto.
          * destruct Eq as [Q1 Q2]. split; auto. apply pool_ok_aset; auto. split; auto.
          * apply shift_fair; auto.
          * eapply doc_ok_perm; [apply pick_perm, shift_fair; auto|auto].
          * apply pool_ok_aset; auto. split; auto.
        + apply obind_ok in E. destruct E as (m1 & Em & E). apply absolute_ref_docs in Em; auto. apply obind_ok in E. destruct E as (q & Eq & E). injection E as <-. simpl.
          eapply prr_members_docs in Eq; auto; [apply shift_fair; auto|]. eapply doc_ok_perm; [apply pick_perm, shift_fair; auto|auto].
    Qed.
  End Node.

  Lemma parseReferencesRecursive_docs k : forall o v b d p r, fair o -> utf8_text b -> doc_ok v -> dr_ok d -> pool_ok pd p ->
    parseReferencesRecursive ce k o v b d p = Ok r -> doc_ok (pr_doc r) /\ pool_ok pd (pr_pool r).
  Proof.
    induction k as [|k IH]; intros o v b d p r F B Hv D Hp E; [discriminate|]. cbn [parseReferencesRecursive] in E.
    eapply parseReferencesNode_docs; eauto.
  Qed.

  (** The drafts named by "$schema" of the documents in play satisfy [pd]. *)
  Definition names_draft (v : value) : Prop := forall u x, parseSchemaURL ce v = Ok (inr (u, Some x)) -> pd x.

  Lemma parseReferences_docs o doc ref pooled p r : fair o -> utf8_text ref -> doc_ok doc -> pool_ok pd p ->
    (c_autodetect ce = true -> names_draft doc) ->
    parseReferences ce o doc ref pooled p = Ok r -> doc_ok (pr_doc r) /\ pool_ok pd (pr_pool r).
  Proof.
    intros F B Hd Hp Hn. unfold parseReferences. destruct (pooled && _)%bool; [intros [= <-]; simpl; auto|].
    intros E. apply obind_ok in E. destruct E as ([e|d] & Ed & E); [injection E as <-; simpl; auto|].
    assert (D : dr_ok d).
    { intros x ->. destruct (c_autodetect ce); [|discriminate]. apply obind_ok in Ed. destruct Ed as ([e|[u y]] & Es & Ed); [discriminate|].
      injection Ed as ->. eapply Hn; eauto. }
    apply obind_ok in E. destruct E as (q & Eq & E). apply parseReferencesRecursive_docs in Eq; auto. destruct Eq as [Q1 Q2].
    destruct pooled; injection E as <-; simpl; auto. split; auto. apply pool_ok_aset; auto. split; auto.
  Qed.

  Lemma pointer_get_doc_ok ts : forall v x, doc_ok v -> pointer_get ts v = Some x -> doc_ok x.
  Proof.
    induction ts as [|t ts IH]; intros v x Hv E; cbn [pointer_get] in E; [injection E as <-; auto|].
    destruct v; try discriminate.
    - destruct (atoi t) as [i|]; [|discriminate]. destruct (i <? 0)%Z; [discriminate|]. destruct (nth_error l _) as [y|] eqn:En; [|discriminate].
      eapply IH; [|exact E]. apply doc_ok_arr in Hv. rewrite Forall_forall in Hv. apply Hv. eapply nth_error_In; eauto.
    - destruct (assoc _ m) as [y|] eqn:Ea; [|discriminate]. eapply IH; [|exact E]. eapply doc_ok_member; eauto.
  Qed.

  (** The fetched documents are decoded texts whose drafts, before and after
      their references are made absolute, satisfy [pd]. *)
  Definition fetch_ok : Prop := forall r v, c_fetch ce r = Some v -> doc_ok v /\
    (c_autodetect ce = true -> names_draft v) /\
    (forall o base p q, fair o -> parseReferences ce o v base true p = Ok q -> names_draft (pr_doc q)).

  Lemma GetDocument_docs o r s dsp s' : fetch_ok -> fair o -> utf8_text r -> pool_ok pd (st_pool s) -> GetDocument ce o r s = COk dsp s' ->
    pool_ok pd (st_pool s') /\ doc_ok (sp_doc dsp) /\ (forall x, sp_draft dsp = Some x -> pd x).
  Proof.
    intros HF F B Hp E. unfold GetDocument in E. apply cbind_ok in E. destruct E as (p & s1 & E1 & E). unfold get_pool in E1. injection E1 as <- <-.
    destruct (assoc r (st_pool s)) as [d|] eqn:Er; [injection E as <- <-; split; [|eapply Hp]; eauto|].
    destruct (assoc (u_strip ce r) (st_pool s)) as [d|] eqn:Eb.
    - destruct (pointer_get _ _) as [x|] eqn:Ex; [|discriminate]. apply cbind_ok in E. destruct E as ([] & s2 & E2 & E). injection E2 as <-. injection E as <- <-.
      pose proof (Hp _ _ Eb) as [D1 D2]. pose proof (pointer_get_doc_ok _ _ _ D1 Ex). simpl. split; auto. apply pool_ok_aset; auto. split; auto.
    - destruct (negb (u_canonical ce r)); [discriminate|]. destruct (c_fetch ce r) as [doc|] eqn:Ef; [|discriminate].
      apply cbind_ok in E. destruct E as (q & s2 & E2 & E). apply lift_ok in E2. destruct E2 as [E2 ->].
      apply cbind_ok in E. destruct E as ([] & s3 & E3 & E). injection E3 as <-.
      apply cbind_ok in E. destruct E as (su & s4 & E4 & E). apply lift_ok in E4. destruct E4 as [E4 ->].
      destruct (HF _ _ Ef) as (D1 & D2 & D3). pose proof (D3 _ _ _ _ F E2) as D4.
      destruct (parseReferences_docs _ _ _ _ _ _ F (proj2 (proj2 Htext) _ B) D1 Hp D2 E2) as [Q1 Q2].
      destruct (pointer_get _ _) as [x|] eqn:Ex; [|discriminate]. injection E as <- <-. simpl. split; auto.
      split; [eapply pointer_get_doc_ok; eauto|]. intros y Ey. destruct su as [e|[u z]]; [discriminate|]. subst. eapply D4; eauto.
  Qed.
End Docs.
