(** Resolving references through the pool, again and again. *)
From Verif Require Export LoaderFacts.
From Coq Require Import Lia.
Open Scope nat_scope.

Section Resolving.
  Variable ce : cenv.

  (** *** "$schema" survives the rewriting of references *)
  Section Members.
    Variable rec : oracle -> value -> string -> option draft -> pool -> out prr.
    Hypothesis Hstr : forall o t b d p r, rec o (VStr t) b d p = Ok r -> pr_doc r = VStr t.
    Lemma members_string k t o b d es : literal_key k = false -> map_key k = false -> (forall x, In (k, x) es -> x = VStr t) ->
      forall i m p q, assoc k m = Some (VStr t) -> prr_members rec o i b d es m p = Ok q -> assoc k (fst q) = Some (VStr t).
    Proof.
      intros L M. induction es as [|[n x] es IH]; intros H i m p q Ek E; cbn [prr_members] in E; [injection E as <-; auto|].
      apply obind_ok in E. destruct E as (r & Er & E). eapply IH; [| |exact E]; [intros y Hy; apply H; right; auto|]. rewrite assoc_aset.
      destruct (String.eqb_spec k n); [|auto]. subst n. rewrite (H x (or_introl eq_refl)) in Er. unfold prr_member in Er. rewrite L, M in Er.
      apply obind_ok in Er. destruct Er as (r' & Er & E2). injection E2 as <-. cbn [fst]. f_equal. eapply Hstr; eauto.
    Qed.
    Lemma members_absent k o b d es : (forall x, ~ In (k, x) es) ->
      forall i m p q, assoc k m = None -> prr_members rec o i b d es m p = Ok q -> assoc k (fst q) = None.
    Proof.
      induction es as [|[n x] es IH]; intros H i m p q Ek E; cbn [prr_members] in E; [injection E as <-; auto|].
      apply obind_ok in E. destruct E as (r & Er & E). eapply IH; [| |exact E]; [intros y Hy; apply (H y); right; auto|]. rewrite assoc_aset.
      destruct (String.eqb_spec k n); [|auto]. subst n. destruct (H x (or_introl eq_refl)).
    Qed.
  End Members.
  Lemma absolute_ref_assoc b m m1 k : k <> "$ref" -> absolute_ref ce b m = Ok m1 -> assoc k m1 = assoc k m.
  Proof.
    intros Hk. unfold absolute_ref. destruct (assoc "$ref" m) as [v|]; [|intros [= <-]; auto]. intros E. apply obind_ok in E. destruct E as (c & _ & E).
    destruct (negb c); [injection E as <-; auto|]. destruct v; try discriminate. destruct (u_parse ce s); [|injection E as <-; auto]. destruct (u_inherits ce b s0); injection E as <-; auto.
    rewrite assoc_aset. destruct (String.eqb_spec k "$ref"); congruence.
  Qed.
  Lemma absolute_ref_keys b m m1 : NoDup (map fst m) -> absolute_ref ce b m = Ok m1 -> NoDup (map fst m1).
  Proof.
    intros N. unfold absolute_ref. destruct (assoc "$ref" m) as [v|]; [|intros [= <-]; auto]. intros E. apply obind_ok in E. destruct E as (c & _ & E).
    destruct (negb c); [injection E as <-; auto|]. destruct v; try discriminate. destruct (u_parse ce s); [|injection E as <-; auto]. destruct (u_inherits ce b s0); injection E as <-; auto.
    apply aset_NoDup. auto.
  Qed.
  Lemma recursive_string k o t b d p r : parseReferencesRecursive ce k o (VStr t) b d p = Ok r -> pr_doc r = VStr t.
  Proof. destruct k; [discriminate|]. cbn. intros [= <-]. reflexivity. Qed.

  Lemma schema_kept k o doc b d p r : fair o -> doc_ok doc -> parseReferencesRecursive ce k o doc b d p = Ok r ->
    (forall m x, doc = VMap m -> assoc "$schema" m = Some x -> exists t, x = VStr t) ->
    parseSchemaURL ce (pr_doc r) = parseSchemaURL ce doc.
  Proof.
    destruct k as [|k]; [discriminate|]. cbn [parseReferencesRecursive]. intros F Hd E HS. unfold parseReferencesNode in E.
    destruct doc as [|c|t|f|t|l|m|m]; try (injection E as <-; reflexivity).
    - apply obind_ok in E. destruct E as (q & _ & E). injection E as <-. reflexivity.
    - pose proof (doc_ok_map m Hd) as [N _].
      assert (K : forall b' m1 p1 q, absolute_ref ce b' m = Ok m1 -> prr_members (parseReferencesRecursive ce k) (shift o 1) 0 b' d (pick (shift o 0) m1) m1 p1 = Ok q ->
                assoc "$schema" (fst q) = assoc "$schema" m).
      { intros b' m1 p1 q Ea Eq. pose proof (absolute_ref_assoc _ _ _ "$schema" ltac:(discriminate) Ea) as E1. pose proof (absolute_ref_keys _ _ _ N Ea) as N1.
        assert (P : Permutation m1 (pick (shift o 0) m1)) by (apply pick_perm, shift_fair; auto).
        destruct (assoc "$schema" m) as [x|] eqn:Es.
        - destruct (HS m x eq_refl Es) as [t ->]. eapply members_string; [| | | | |exact Eq]; auto.
          + intros; eapply recursive_string; eauto.
          + intros x Hx. apply Permutation_sym in P. eapply Permutation_in in Hx; [|exact P]. apply (assoc_NoDup _ _ _ N1) in Hx. congruence.
        - eapply members_absent; [| |exact Eq]; auto. intros x Hx. apply Permutation_sym in P. eapply Permutation_in in Hx; [|exact P]. apply (assoc_NoDup _ _ _ N1) in Hx. congruence. }
      apply obind_ok in E. destruct E as ([id|] & _ & E).
      + destruct (assoc id p); [injection E as <-; reflexivity|]. apply obind_ok in E. destruct E as (m1 & Ea & E). apply obind_ok in E. destruct E as (q & Eq & E).
        injection E as <-. cbn [pr_doc]. unfold parseSchemaURL, isKind. cbn [kind_of obind existsb kind_eqb orb negb]. rewrite (K _ _ _ _ Ea Eq). reflexivity.
      + apply obind_ok in E. destruct E as (m1 & Ea & E). apply obind_ok in E. destruct E as (q & Eq & E).
        injection E as <-. cbn [pr_doc]. unfold parseSchemaURL, isKind. cbn [kind_of obind existsb kind_eqb orb negb]. rewrite (K _ _ _ _ Ea Eq). reflexivity.
  Qed.
  Lemma named_string doc r m x : parseSchemaURL ce doc = Ok (inr r) -> doc = VMap m -> assoc "$schema" m = Some x -> exists t, x = VStr t.
  Proof.
    intros E -> Es. unfold parseSchemaURL, isKind in E. cbn [kind_of obind existsb kind_eqb orb negb] in E. rewrite Es in E.
    destruct x as [|c|t|f|t|l|o|o]; cbn in E; try discriminate; eauto. destruct (rat_of _ t); discriminate.
  Qed.

  (** *** Resolving known references *)
  Definition outcome {A} (x : cres A) : option (A + cerr) := match x with COk a _ => Some (inl a) | CErr e _ => Some (inr e) | _ => None end.
  Definition pool_knows (p : pool) (r : string) : Prop := assoc r p <> None \/ assoc (u_strip ce r) p <> None.

  Lemma known_order o o' r s : pool_knows (st_pool s) r -> GetDocument ce o r s = GetDocument ce o' r s.
  Proof.
    intros K. unfold GetDocument, cbind, get_pool. destruct (assoc r (st_pool s)) as [e|] eqn:Er; auto.
    destruct (assoc (u_strip ce r) (st_pool s)) as [e|] eqn:Eb; auto. destruct K; congruence.
  Qed.
  Theorem resolve_stable o r s e s' : pool_knows (st_pool s) r -> GetDocument ce o r s = COk e s' ->
    forall o' r' h src refs, pool_knows (st_pool s) r' ->
    outcome (GetDocument ce o' r' (CState h src (st_pool s') refs)) = outcome (GetDocument ce o' r' s).
  Proof.
    intros K E o' r' h src refs K'. unfold GetDocument, cbind, get_pool in *. cbn [st_pool]. destruct (assoc r (st_pool s)) as [e1|] eqn:Er.
    { injection E as <- <-. destruct (assoc r' (st_pool s)) eqn:Er'; auto. destruct (assoc (u_strip ce r') (st_pool s)) as [b|] eqn:Eb; [|destruct K'; congruence].
      destruct (pointer_get _ _); reflexivity. }
    destruct (assoc (u_strip ce r) (st_pool s)) as [b|] eqn:Eb; [|destruct K; congruence]. destruct (pointer_get _ (sp_doc b)) as [x|] eqn:Ex; [|discriminate].
    cbn in E. injection E as <- <-. cbn [st_pool]. rewrite !assoc_aset. destruct (String.eqb_spec r' r) as [->|Hne].
    - rewrite Er, Eb, Ex. reflexivity.
    - destruct (assoc r' (st_pool s)) eqn:Er'; [reflexivity|]. destruct (String.eqb_spec (u_strip ce r') r) as [Hb|Hb].
      + exfalso. destruct K'; congruence.
      + destruct (assoc (u_strip ce r') (st_pool s)) as [b'|] eqn:Eb'; [|destruct K'; congruence]. destruct (pointer_get _ (sp_doc b')); reflexivity.
  Qed.

  (** *** A fetched document *)
  Theorem resolve_again o r s e s' : (forall t, u_fragment ce (u_strip ce t) = "") -> fair o ->
    (forall v, c_fetch ce r = Some v -> doc_ok v) ->
    ~ pool_knows (st_pool s) r -> GetDocument ce o r s = COk e s' ->
    r = u_strip ce r \/ assoc r (st_pool s') = None ->
    forall o' h src refs, fair o' -> exists e' s2, GetDocument ce o' r (CState h src (st_pool s') refs) = COk e' s2 /\
      sp_doc e' = sp_doc e /\ (c_autodetect ce = true -> sp_draft e' = sp_draft e).
  Proof.
    intros HF F HD NK E HR o' h src refs F'. unfold pool_knows in NK. apply Decidable.not_or in NK. destruct NK as [N1 N2].
    assert (Er : assoc r (st_pool s) = None) by (destruct (assoc r (st_pool s)); auto; destruct N1; discriminate).
    assert (Eb : assoc (u_strip ce r) (st_pool s) = None) by (destruct (assoc (u_strip ce r) (st_pool s)); auto; destruct N2; discriminate). clear N1 N2.
    unfold GetDocument, cbind, get_pool in *. cbn [st_pool]. rewrite Er, Eb in E. destruct (negb (u_canonical ce r)) eqn:Ec; [discriminate|].
    destruct (c_fetch ce r) as [doc|] eqn:Ef; [|discriminate]. specialize (HD _ eq_refl).
    unfold parseReferences in E. rewrite Eb in E. cbn [andb] in E.
    (* either "$schema" is bad, and the document was not kept, or it was *)
    set (dr := if c_autodetect ce then _ else _) in E. destruct dr as [[err|d]| |] eqn:Edr; try discriminate E; cbn [obind] in E.
    - cbn in E. destruct (parseSchemaURL ce doc) as [su| |] eqn:Esu; try discriminate E. cbn in E. destruct (pointer_get _ doc) as [x|] eqn:Ex; [|discriminate]. injection E as <- <-. cbn [st_pool].
      rewrite Er, Eb. unfold parseReferences. rewrite Eb. cbn [andb]. unfold dr in Edr. rewrite Esu, Edr. cbn. rewrite Esu. cbn. rewrite Ex. eexists; eexists. split; [reflexivity|]. split; auto.
    - destruct (parseReferencesRecursive ce (S (vsize doc)) o doc (u_strip ce r) d (st_pool s)) as [q| |] eqn:Eq; try discriminate E. cbn in E.
      destruct (parseSchemaURL ce (pr_doc q)) as [su| |] eqn:Esu; try discriminate E. cbn in E. destruct (pointer_get _ (pr_doc q)) as [x|] eqn:Ex; [|discriminate].
      injection E as <- <-. cbn [st_pool] in *. rewrite !assoc_aset in *. rewrite String.eqb_refl in *.
      assert (DR : c_autodetect ce = true -> d = match su with inr (_, d0) => d0 | inl _ => None end).
      { intros Ha. unfold dr in Edr. rewrite Ha in Edr. apply obind_ok in Edr. destruct Edr as (z & Ez & Edr). destruct z as [e0|[u d0]]; [discriminate|]. injection Edr as <-.
        assert (KS : parseSchemaURL ce (pr_doc q) = parseSchemaURL ce doc) by (exact (schema_kept _ o doc _ _ _ q F HD Eq (fun m x A B => named_string doc (u, d0) m x Ez A B))).
        rewrite KS, Ez in Esu. injection Esu as <-. reflexivity. }
      destruct (String.eqb_spec r (u_strip ce r)) as [Hr|Hr].
      + eexists; eexists. split; [reflexivity|]. cbn [sp_doc sp_draft]. rewrite Hr, HF in Ex. cbn in Ex. injection Ex as ->. split; auto.
      + destruct HR as [HR|HR]; [congruence|]. rewrite HR. cbn [sp_doc]. rewrite Ex. cbn. eexists; eexists. split; [reflexivity|]. split; auto.
  Qed.
End Resolving.
