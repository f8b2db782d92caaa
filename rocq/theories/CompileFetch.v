(** Compiling when references lead to known documents or to documents that are
    fetched on the way. *)
From Verif Require Export SpecFetch LoadFacts CompileKnown.
From Coq Require Import Lia.
Open Scope nat_scope.

(** What is asked of the URL library and of fetching. *)
Definition fetch_laws (ce : cenv) : Prop :=
  (forall b r s, u_parse ce s = Some r -> u_inherits ce b r <> None) /\
  urls_text ce /\
  (forall r, u_strip ce (u_strip ce r) = u_strip ce r) /\
  (forall r, u_fragment ce (u_strip ce r) = "") /\
  (forall r, u_canonical ce (u_strip ce r) = u_canonical ce r) /\
  (forall s r, u_parse ce s = Some r -> u_parse ce r = Some r /\ u_parse ce (u_strip ce r) = Some (u_strip ce r)) /\
  (forall r, u_parse ce r = Some r -> c_fetch ce r = c_fetch ce (u_strip ce r)) /\
  (forall r v, c_fetch ce r = Some v -> doc_ok v).

Section Fetching.
  Variable ce : cenv.
  Hypothesis HL : fetch_laws ce.
  Notation lim := (e_ratlim (c_go ce)).
  Notation resolve := (resolve (u_parse ce) (u_inherits ce)).
  Notation ids_of := (ids_of (u_parse ce) (u_inherits ce)).

  Lemma page_fun b x dr x' dr' : page ce b x dr -> page ce b x' dr' -> x = x' /\ dr = dr'.
  Proof.
    intros (raw & E & _ & _ & _ & _ & _ & -> & ->) (raw' & E' & _ & _ & _ & _ & _ & -> & ->).
    assert (raw = raw') by congruence. subst. auto.
  Qed.
  Lemma resolve_doc_ok b raw : utf8_text b -> doc_ok raw -> all_numbers (moderate lim) raw -> well_declared (u_parse ce) raw ->
    NoDup (map fst (ids_of b raw)) -> doc_ok (resolve b raw).
  Proof.
    intros B Hd Hm Hw ND. destruct HL as (L1 & L2 & _).
    destruct (parseReferences_resolves ce L1 in_order raw b false []) as (p' & _ & E'); auto; try discriminate; [apply in_order_fair|split; auto|].
    eapply (parseReferences_docs ce (fun _ => True) L2) in E'; [exact (proj1 E')|apply in_order_fair|auto|auto| |].
    - intros r e He. discriminate He.
    - intros _ u x _. exact I.
  Qed.
  Lemma page_doc_ok b x dr : utf8_text b -> page ce b x dr -> doc_ok x.
  Proof.
    intros B (raw & E & Hm & Hw & _ & ND & _ & -> & _). apply resolve_doc_ok; auto. destruct HL as (_ & _ & _ & _ & _ & _ & _ & L). eapply L; eauto.
  Qed.

  Variable p0 : pool.
  Notation finds := (finds ce p0).
  Hypothesis Hp : forall r e, assoc r p0 = Some e -> doc_ok (sp_doc e).

  Lemma finds_fun r e e' : finds r e -> finds r e' -> e = e'.
  Proof.
    intros [H|(Hn & Hb & _ & _ & ts & x & dr & y & Hpg & Hf & Hx & ->)] [H'|(Hn' & Hb' & _ & _ & ts' & x' & dr' & y' & Hpg' & Hf' & Hx' & ->)].
    - eapply locates_fun; eauto.
    - exfalso. destruct H as [H|(_ & b & ts & z & H & _)]; congruence.
    - exfalso. destruct H' as [H|(_ & b & ts' & z & H & _)]; congruence.
    - destruct (page_fun _ _ _ _ _ Hpg Hpg') as [-> ->]. apply (pointer_follows _ _ _ _ Hf) in Hx. apply (pointer_follows _ _ _ _ Hf') in Hx'. congruence.
  Qed.
  Lemma points_doc_ok ts x y : points ts x y -> doc_ok x -> doc_ok y.
  Proof. intros H. apply inside_doc_ok. eapply inside_points; eauto. Qed.
  Lemma finds_doc_ok r e : utf8_text r -> finds r e -> doc_ok (sp_doc e).
  Proof.
    intros B [[H|(_ & b & ts & x & Hb & _ & Px & ->)]|(_ & _ & _ & _ & ts & x & dr & y & Hpg & _ & Px & ->)]; [eauto| |].
    - cbn [sp_doc]. eapply points_doc_ok; eauto.
    - cbn [sp_doc]. eapply points_doc_ok; eauto. eapply page_doc_ok; [|exact Hpg]. destruct HL as (_ & (_ & _ & L) & _). auto.
  Qed.

  (** The pool holds what it held, and what can be found. *)
  Definition grown (p : pool) : Prop :=
    (forall r e, assoc r p0 = Some e -> assoc r p = Some e) /\
    (forall r e, assoc r p = Some e -> finds r e /\ (assoc r p0 = Some e \/ u_parse ce r = Some r)).
  Lemma grown_refl : grown p0.
  Proof. split; [auto|]. intros r e H. split; auto. left. left. auto. Qed.

  Theorem GetDocument_finds o r e s : fair o -> utf8_text r -> u_parse ce r = Some r -> grown (st_pool s) -> finds r e ->
    exists s', GetDocument ce o r s = COk e s' /\ grown (st_pool s') /\ st_refs s' = st_refs s.
  Proof.
    intros F B Pr [G1 G23] HF. assert (G2 : forall r e, assoc r (st_pool s) = Some e -> finds r e) by (intros r' e' H'; apply (G23 _ _ H')). pose proof HL as (L1 & L2 & L3 & L4 & L5 & L6 & L7 & L8).
    unfold GetDocument, cbind, get_pool. destruct (assoc r (st_pool s)) as [e'|] eqn:Er.
    { rewrite (finds_fun r e e' HF (G2 _ _ Er)). exists s. split; [reflexivity|]. split; [split; auto|auto]. }
    assert (En : assoc r p0 = None) by (destruct (assoc r p0) as [e'|] eqn:E0; auto; apply G1 in E0; congruence).
    destruct (assoc (u_strip ce r) (st_pool s)) as [b|] eqn:Eb.
    - (* from a known document *)
      assert (X : exists ts y, u_fragment ce r = pointer_text ts /\ points ts (sp_doc b) y /\ e = Spd y (sp_draft b)).
      { destruct HF as [[HF|(_ & b' & ts & x & Hb & Hf & Px & ->)]|(_ & Hb & Hc & Hr & ts & x & dr & y & Hpg & Hf & Px & ->)]; [congruence| |].
        - apply G1 in Hb. rewrite Eb in Hb. injection Hb as <-. eauto.
        - apply G2 in Eb. destruct Eb as [[Eb|(_ & b' & ts' & x' & Hb' & _)]|(_ & _ & _ & _ & ts' & x' & dr' & y' & Hpg' & Hf' & Px' & ->)]; [congruence| |].
          + rewrite L3 in Hb'. congruence.
          + rewrite L3 in Hpg'. destruct (page_fun _ _ _ _ _ Hpg Hpg') as [<- <-].
            assert (y' = x). { rewrite L4 in Hf'. pose proof (pointer_follows _ _ _ _ Hf' Px') as E. cbn in E. congruence. }
            subst. cbn [sp_doc sp_draft]. eauto. }
      destruct X as (ts & y & Hf & Px & ->). rewrite (pointer_follows _ _ _ _ Hf Px). cbn.
      eexists. split; [reflexivity|]. split; [|reflexivity]. split.
      + intros r' e He. cbn [st_pool]. rewrite assoc_aset. destruct (String.eqb_spec r' r); [congruence|apply G1; auto].
      + intros r' e. cbn [st_pool]. rewrite assoc_aset. destruct (String.eqb_spec r' r); [intros [= <-]; subst; auto|apply G23].
    - (* fetched *)
      destruct HF as [[HF|(_ & b' & ts & x & Hb & Hf & Px & ->)]|HF]; [congruence|apply G1 in Hb; congruence|].
      pose proof HF as (_ & Hb & Hc & Hr & ts & x & dr & y & Hpg & Hf & Px & ->).
      pose proof Hpg as (raw & Ef & Hm & Hw & Ha & ND & Hid & -> & ->). rewrite Hc. cbn [negb]. rewrite L7, Ef; auto.
      assert (B' : utf8_text (u_strip ce r)) by (apply L2; auto).
      assert (Hd : doc_ok raw) by eauto. pose proof (resolve_doc_ok _ _ B' Hd Hm Hw ND) as Hdr.
      destruct (parseReferences_resolves ce L1 o raw (u_strip ce r) true (st_pool s)) as (p' & A & E); auto.
      { split; auto. intros t Ht. apply in_map_iff in Ht. destruct Ht as ([t' z] & <- & Ht). apply Hid in Ht. cbn [fst]. subst. auto. }
      rewrite E. cbn [lift_out cret set_pool pr_pool pr_doc].
      destruct (parseSchemaURL_named ce (resolve (u_strip ce r) raw) Hdr (resolve_numbers ce lim _ raw _ (Nat.lt_succ_diag_r _) Hm)) as [[_ [u Eu]]|[N _]].
      2: { destruct N. apply resolve_declared; auto. }
      rewrite Eu. cbn [lift_out cret]. rewrite (pointer_follows _ _ _ _ Hf Px), resolve_named. eexists. split; [reflexivity|]. split; [|reflexivity].
      assert (Hdd : doc_draft ce raw = named_draft (u_parse ce) raw).
      { unfold doc_draft. destruct (c_autodetect ce); auto. destruct Ha as [Ha|Ha]; [discriminate|auto]. }
      assert (Hbase : finds (u_strip ce r) (Spd (resolve (u_strip ce r) raw) (named_draft (u_parse ce) raw))).
      { right. split; auto. rewrite !L3, L5. split; auto. split; auto. split; [apply (L6 _ _ Hr)|].
        exists [], (resolve (u_strip ce r) raw), (named_draft (u_parse ce) raw), (resolve (u_strip ce r) raw). split; auto. split; [apply L4|]. split; [constructor|reflexivity]. }
      split.
      + intros r' e' He. cbn [st_pool]. rewrite assoc_aset. destruct (String.eqb_spec r' (u_strip ce r)); [congruence|]. apply A. left. auto.
      + intros r' e'. cbn [st_pool]. rewrite assoc_aset. destruct (String.eqb_spec r' (u_strip ce r)) as [->|N].
        * intros [= <-]. rewrite Hdd. split; [exact Hbase|]. right. apply (L6 _ _ Hr).
        * intros He. apply A in He. destruct He as [He|(z & Hz & ->)]; [auto|]. apply Hid in Hz. congruence.
  Qed.

  (** What is found in a grown pool could be found before. *)
  Lemma grown_finds p r e : grown p -> u_parse ce r = Some r -> SpecFetch.finds ce p r e -> finds r e.
  Proof.
    intros [G1 G2] Pr HF. pose proof HL as (L1 & L2 & L3 & L4 & L5 & L6 & L7 & L8).
    assert (N : forall r', assoc r' p = None -> assoc r' p0 = None) by (intros r' Er; destruct (assoc r' p0) as [e'|] eqn:E0; auto; apply G1 in E0; congruence).
    destruct HF as [[HF|(Hn & b & ts & x & Hb & Hf & Px & ->)]|(Hn & Hb & R)]; [apply G2; auto| |right; auto].
    apply N in Hn. destruct (G2 _ _ Hb) as [[[Eb|(_ & b' & ts' & x' & Hb' & Hf' & Px' & ->)]|(Hb1 & Hb2 & Hc & _ & ts' & x' & dr' & y' & Hpg' & Hf' & Px' & ->)] _].
    - left. right. split; auto. exists b, ts, x. auto.
    - rewrite L3 in Hb'. rewrite L4 in Hf'. pose proof (pointer_follows _ _ _ _ Hf' Px') as E. cbn in E. injection E as <-. left. right. split; auto. exists b', ts, x. split; auto.
    - rewrite L3 in *. rewrite L4 in Hf'. pose proof (pointer_follows _ _ _ _ Hf' Px') as E. cbn in E. injection E as <-. cbn [sp_doc sp_draft] in *.
      right. split; auto. split; auto. split; [rewrite <- L5; auto|]. split; auto. exists ts, x', dr', x. auto.
  Qed.
  (** *** From a document on *)
  Variable doc : value.
  Hypothesis Hdoc : doc_ok doc.
  Notation reached := (reached ce p0 doc).
  Notation found := (found ce p0 doc).
  Notation heads_to := (heads_to ce p0 doc).
  Hypothesis Hall : all_found ce p0 doc.

  Lemma mentions_text v k : doc_ok v -> mentions v k -> utf8_text k.
  Proof.
    intros D M. induction M as [m k H|l x k H M IH|m n x k H M IH].
    - destruct (doc_ok_entry _ _ _ D H) as [_ [S _]]. inversion S. auto.
    - apply IH. apply doc_ok_arr in D. rewrite Forall_forall in D. auto.
    - apply IH. apply (doc_ok_entry _ _ _ D H).
  Qed.
  Lemma reached_parse r : reached r -> u_parse ce r = Some r.
  Proof. destruct HL as (_ & _ & _ & _ & _ & L6 & _). intros R. inversion R; subst; eapply L6; eauto. Qed.
  Lemma reached_text r : reached r -> utf8_text r.
  Proof.
    destruct HL as (_ & (L & _) & _). induction 1 as [k r M E|r e k r' _ IH HF M E].
    - eapply L; [|exact E]. eapply mentions_text; eauto.
    - eapply L; [|exact E]. eapply mentions_text; [|exact M]. eapply finds_doc_ok; eauto.
  Qed.
  Lemma found_docs r e : found r e -> doc_ok (sp_doc e) /\ closed_in ce found (sp_doc e).
  Proof.
    intros [R HF]. split; [eapply finds_doc_ok; eauto; apply reached_text; auto|]. intros k r' M E.
    assert (R' : reached r') by (eapply reached_on; eauto). destruct (Hall _ R') as [e' He']. exists e'. split; auto.
  Qed.
  Lemma found_closed : closed_in ce found doc.
  Proof. intros k r M E. assert (R : reached r) by (eapply reached_root; eauto). destruct (Hall _ R) as [e He]. exists e. split; auto. Qed.
  Lemma found_fun r e e' : found r e -> found r e' -> e = e'.
  Proof. intros [_ H] [_ H']. eapply finds_fun; eauto. Qed.
  Lemma found_get o r s dsp s' : fair o -> grown (st_pool s) -> (exists e, found r e) -> GetDocument ce o r s = COk dsp s' ->
    grown (st_pool s') /\ found r dsp.
  Proof.
    intros F G [e [R HF]] E. destruct (GetDocument_finds o r e s F (reached_text _ R) (reached_parse _ R) G HF) as (s1 & E1 & G1 & _).
    rewrite E in E1. injection E1 as <- <-. split; auto. split; auto.
  Qed.

  Variable d1 : draft.
  Hypothesis Hset : settled_in found d1.

  Theorem fetch_acyclic fuel o docref p id s' : grown p -> fair o ->
    parse ce fuel o docref d1 doc (CState [] [] p []) = COk id s' ->
    guarded (heads_to d1) d1 doc -> forall a, reach (st_heap s') id a -> ~ chain (st_heap s') a a.
  Proof.
    intros G F. apply (lib_acyclic ce found grown d1 Hset found_docs found_fun found_get fuel o docref doc p id s' G Hdoc found_closed F).
  Qed.
  Theorem fetch_link fuel o docref p id s' : grown p -> fair o ->
    parse ce fuel o docref d1 doc (CState [] [] p []) = COk id s' ->
    forall v V, usual lim v ->
    (forall d m w, needed (heads_to d1) d1 doc v d (VMap m) w -> assoc "$ref" m = None -> fits lim m w) ->
    meaning_at (pat (c_go ce)) (fmt (c_go ce)) same (heads_to d1) d1 doc v V ->
    forall k o' c, fair o' -> validateRecursive (c_go ce) (st_heap s') k o' id v c <> Panic /\
      forall r, validateRecursive (c_go ce) (st_heap s') k o' id v c = Ok r -> (errors r = [] <-> V d1 doc v).
  Proof.
    intros G F. apply (lib_link ce found grown d1 Hset found_docs found_fun found_get fuel o docref doc p id s' G Hdoc found_closed F).
  Qed.
  Lemma fetch_pool fuel o docref p id s' : grown p -> fair o ->
    parse ce fuel o docref d1 doc (CState [] [] p []) = COk id s' -> grown (st_pool s').
  Proof.
    intros G F E.
    destruct (parse_ok ce (lib_policy ce found grown d1) (lib_fetch ce found grown d1 found_docs found_get) fuel o docref d1 doc p id s' F G
      (conj Hdoc found_closed) (or_intror eq_refl) E) as (_ & (_ & W & _) & _). exact W.
  Qed.
End Fetching.

Lemma grown_trans ce p0 p p' : fetch_laws ce -> grown ce p0 p -> grown ce p p' -> grown ce p0 p'.
Proof.
  intros HL G [G1 G2]. pose proof G as [G3 G4]. split; [intros r e E; apply G1, G3; auto|]. intros r e E. destruct (G2 _ _ E) as [HF [E'|P]]; auto.
  split; auto. eapply grown_finds; eauto.
Qed.


(** *** Compilation returns *)
Section Returns.
  Variable ce : cenv.
  Hypothesis HL : fetch_laws ce.
  Variable p0 : pool.
  Hypothesis Hp : forall r e, assoc r p0 = Some e -> doc_ok (sp_doc e).
  Variable doc : value.
  Hypothesis Hdoc : doc_ok doc.
  Variable lib : pool.
  Hypothesis Hcov : covered ce p0 lib doc.
  Variable d0 : draft.
  Notation lim := (e_ratlim (c_go ce)).
  Notation re := (fun p => e_re_ok (c_go ce) p = true).
  Notation url := (fun s => u_parse ce s <> None).
  Notation mod_ := (all_numbers (moderate lim)).
  Notation met := (meets (heads_to ce p0 doc) d0 doc).

  Lemma covered_complete : all_found ce p0 doc.
  Proof. intros r R. destruct (Hcov r R) as (e & _ & H). eauto. Qed.
  Definition lib_docs : list value := doc :: map (fun e => sp_doc (snd e)) lib.
  Definition lib_fuel : nat := length lib * S (max_size lib_docs) + vsize doc.

  Lemma meets_found d v : met d v -> exists x, In x lib_docs /\ inside x v /\ doc_ok x /\ closed_in ce (found ce p0 doc) x.
  Proof.
    induction 1 as [|d m x _ IH S|d m k d' x _ IH E L].
    - exists doc. split; [left; auto|]. split; [constructor|]. split; auto. apply found_closed. apply covered_complete.
    - destruct IH as (y & H1 & H2 & H3). exists y. split; auto. split; auto. eapply inside_trans; eauto. eapply inside_subschema; eauto.
    - destruct L as (r & e & _ & L & -> & _). exists (sp_doc e). pose proof L as [R HF]. split.
      + right. destruct (Hcov r R) as (e' & Hin & HF'). rewrite (finds_fun ce p0 r e e' HF HF'). apply in_map_iff. exists (r, e'). auto.
      + split; [constructor|]. exact (found_docs ce HL p0 Hp doc Hdoc covered_complete r e L).
  Qed.

  Theorem parse_covered fuel o docref p : fair o -> lib_fuel < fuel -> grown ce p0 p ->
    match parse ce fuel o docref d0 doc (CState [] [] p []) with
    | COk _ _ => mod_ doc -> read_ok re url d0 doc
    | CErr _ _ => ~ forall d v, met d v -> right ce d v
    | CPanic => ~ forall d v, met d v -> tame ce v
    | CNoFuel => False
    end.
  Proof.
    intros F Hf KP. pose proof HL as (Hinh & _).
    pose proof (parse_total ce (fun b s r => Hinh b r s) met (map fst lib) (max_size lib_docs) (grown ce p0) (~ forall d v, met d v -> right ce d v) (~ forall d v, met d v -> tame ce v) False) as T.
    specialize (T (fun d v H => match meets_found d v H with ex_intro _ x (conj H1 (conj H2 (conj H3 _))) => conj (inside_doc_ok _ _ H2 H3) (or_intror (Nat.le_trans _ _ _ (inside_size _ _ H2) (max_size_le _ _ H1))) end)).
    specialize (T (fun d m x H S => meets_sub _ d0 doc d m x H S)).
    specialize (T (fun d v H N A => N (A d v H)) (fun d v H N A => N (A d v H))).
    match type of T with ?A -> _ => assert (HW : A) end.
    { intros d m k r H Er Eu. destruct (meets_found _ _ H) as (x & H1 & H2 & H3 & H4).
      pose proof (inside_mentions _ _ _ H2 (mentions_assoc _ _ Er)) as Mk. destruct (H4 _ _ Mk Eu) as [e L]. pose proof L as [R HF]. split.
      - right. destruct (Hcov r R) as (e' & Hin & _). apply in_map_iff. exists (r, e'). auto.
      - intros n o' F' s Hps Hl. destruct (GetDocument_finds ce HL p0 o' r e s F' (reached_text ce HL p0 Hp doc Hdoc r R) (reached_parse ce HL p0 doc r R) Hps HF) as (s' & -> & K' & R').
        split; auto. split; [unfold left in *; rewrite R'; auto|]. eapply meets_ref; eauto. exists r, e. auto. }
    specialize (T HW fuel o docref d0 doc p F KP (meets_root _ _ _)). rewrite map_length in T. specialize (T (or_intror Hf)).
    destruct (parse _ _ _ _ _ _ _) as [x s'|e s'| |]; auto; apply T.
  Qed.
End Returns.
