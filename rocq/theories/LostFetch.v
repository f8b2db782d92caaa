(** Compiling documents some of whose references lead nowhere. *)
From Verif Require Import PointerProps.
From Verif Require Export SpecLost CompileVisit LoadFetch FaultProps.
From Coq Require Import Lia.
Open Scope string_scope.
Open Scope list_scope.
Open Scope nat_scope.

Lemma nowhere_get ce r x : nowhere ce r x <-> pointer_get (pointer_tokens (u_fragment ce r)) x = None.
Proof.
  split.
  - intros N. destruct (pointer_get (pointer_tokens (u_fragment ce r)) x) as [y|] eqn:E; auto. destruct (fragment_exists (u_fragment ce r)) as [ts F].
    destruct (N ts y F). apply (fragment_get _ _ _ _ F). exact E.
  - intros E ts y F R. apply (fragment_get _ _ _ _ F) in R. congruence.
Qed.

Section Lost.
  Variable ce : cenv.
  Hypothesis HL : fetch_laws ce.
  Notation lim := (e_ratlim (c_go ce)).
  Notation resolve := (resolve (u_parse ce) (u_inherits ce)).
  Variable p0 : pool.
  Notation finds := (finds ce p0).
  Notation lost := (lost ce p0).
  Hypothesis Hp : forall r e, assoc r p0 = Some e -> doc_ok (sp_doc e).

  Lemma finds_lost r e x : finds r e -> lost r x -> False.
  Proof.
    intros HF HX. destruct HX as [b N B W|e' N B C _|N B C F|y dr N B C P W].
    - destruct HF as [[HF|(_ & b' & ts & z & Hb & Hf & Px & _)]|(_ & Hb & _)]; [congruence| |congruence].
      assert (b' = b) by congruence. subst. apply nowhere_get in W. rewrite (pointer_follows _ _ _ _ Hf Px) in W. discriminate.
    - destruct HF as [[HF|(_ & b' & ts & z & Hb & _)]|(_ & _ & Hc & _)]; congruence.
    - destruct HF as [[HF|(_ & b' & ts & z & Hb & _)]|(_ & _ & _ & _ & ts & z & dr & y & (raw & E & _) & _)]; congruence.
    - destruct HF as [[HF|(_ & b' & ts & z & Hb & _)]|(_ & _ & _ & _ & ts & z & dr' & y' & Hpg & Hf & Px & _)]; [congruence|congruence|].
      destruct (page_fun _ _ _ _ _ _ P Hpg) as [-> _]. apply nowhere_get in W. rewrite (pointer_follows _ _ _ _ Hf Px) in W. discriminate.
  Qed.

  Theorem GetDocument_lost o r x s : fair o -> utf8_text r -> u_parse ce r = Some r -> grown ce p0 (st_pool s) -> lost r x ->
    exists s', GetDocument ce o r s = CErr x s' /\ grown ce p0 (st_pool s').
  Proof.
    intros F B Pr G HX. pose proof G as [G1 G23]. assert (G2 : forall r e, assoc r (st_pool s) = Some e -> finds r e) by (intros r' e' H'; apply (G23 _ _ H')).
    pose proof HL as (L1 & L2 & L3 & L4 & L5 & L6 & L7 & L8).
    unfold GetDocument, cbind, get_pool. destruct (assoc r (st_pool s)) as [e'|] eqn:Er.
    { destruct (finds_lost _ _ _ (G2 _ _ Er) HX). }
    destruct (assoc (u_strip ce r) (st_pool s)) as [b|] eqn:Eb.
    - assert (X : x = EPointer /\ nowhere ce r (sp_doc b)).
      { pose proof (G2 _ _ Eb) as HB. destruct HX as [b' N B' W|e' N B' C _|N B' C Ff|y dr N B' C P W].
        - apply G1 in B'. assert (b' = b) by congruence. subst. auto.
        - destruct HB as [[HB|(_ & b' & ts & z & Hb & _)]|(_ & _ & Hc & _)]; [congruence|rewrite L3 in Hb; congruence|rewrite L5 in Hc; congruence].
        - destruct HB as [[HB|(_ & b' & ts & z & Hb & _)]|(_ & _ & _ & _ & ts & z & dr & y & (raw & E & _) & _)]; [congruence|rewrite L3 in Hb; congruence|rewrite L3 in E; congruence].
        - destruct HB as [[HB|(_ & b' & ts & z & Hb & _)]|(_ & _ & _ & _ & ts & z & dr' & y' & Hpg & Hf & Px & ->)]; [congruence|rewrite L3 in Hb; congruence|].
          rewrite L3 in Hpg. destruct (page_fun _ _ _ _ _ _ P Hpg) as [-> _]. rewrite L4 in Hf. pose proof (pointer_follows _ _ _ _ Hf Px) as E. cbn in E. injection E as <-. auto. }
      destruct X as [-> X]. apply nowhere_get in X. rewrite X. cbn. eexists. split; [reflexivity|]. exact G.
    - destruct HX as [b' N B' W|e' N B' C ->|N B' C Ff|y dr N B' C P W].
      + apply G1 in B'. congruence.
      + rewrite C. cbn. eexists. split; [reflexivity|]. exact G.
      + rewrite C. cbn [negb]. rewrite L7, Ff; auto. cbn. eexists. split; [reflexivity|]. exact G.
      + pose proof P as (raw & Ef & Hm & Hw & Ha & ND & Hid & -> & ->). rewrite C. cbn [negb]. rewrite L7, Ef; auto.
        assert (B2 : utf8_text (u_strip ce r)) by (apply L2; auto).
        assert (Hd : doc_ok raw) by eauto. pose proof (resolve_doc_ok ce HL _ _ B2 Hd Hm Hw ND) as Hdr.
        destruct (parseReferences_resolves ce L1 o raw (u_strip ce r) true (st_pool s)) as (p' & A & E); auto.
        { split; auto. intros t Ht. apply in_map_iff in Ht. destruct Ht as ([t' z] & <- & Ht). apply Hid in Ht. cbn [fst]. subst. auto. }
        rewrite E. cbn [lift_out cret set_pool pr_pool pr_doc].
        destruct (parseSchemaURL_named ce (resolve (u_strip ce r) raw) Hdr (resolve_numbers ce lim _ raw _ (Nat.lt_succ_diag_r _) Hm)) as [[_ [u Eu]]|[Nd _]].
        2: { destruct Nd. apply resolve_declared; auto. }
        rewrite Eu. cbn [lift_out cret]. apply nowhere_get in W. rewrite W. cbn [cfail]. eexists. split; [reflexivity|].
        assert (Hdd : doc_draft ce raw = named_draft (u_parse ce) raw).
        { unfold doc_draft. destruct (c_autodetect ce); auto. destruct Ha as [Ha|Ha]; [discriminate|auto]. }
        assert (Hbase : finds (u_strip ce r) (Spd (resolve (u_strip ce r) raw) (named_draft (u_parse ce) raw))).
        { right. split; auto. rewrite !L3, L5. split; auto. split; auto. split; [apply (L6 _ _ Pr)|].
          exists [], (resolve (u_strip ce r) raw), (named_draft (u_parse ce) raw), (resolve (u_strip ce r) raw). split; auto. split; [apply L4|]. split; [constructor|reflexivity]. }
        split.
        * intros r' e' He. cbn [st_pool]. rewrite assoc_aset. destruct (String.eqb_spec r' (u_strip ce r)); [congruence|]. apply A. left. auto.
        * intros r' e'. cbn [st_pool]. rewrite assoc_aset. destruct (String.eqb_spec r' (u_strip ce r)) as [->|N'].
          -- intros [= <-]. rewrite Hdd. split; [exact Hbase|]. right. apply (L6 _ _ Pr).
          -- intros He. apply A in He. destruct He as [He|(z & Hz & ->)]; [auto|]. apply Hid in Hz. congruence.
  Qed.
End Lost.

(** A compilation that succeeds has followed every reference it met. *)
Section Followed.
  Variable ce : cenv.
  Notation lim := (e_ratlim (c_go ce)).
  Notation re := (fun p => e_re_ok (c_go ce) p = true).
  Notation url := (fun s => u_parse ce s <> None).
  Notation mod_ := (all_numbers (moderate lim)).
  Variable G : string -> spd -> Prop.
  Variable d0 : draft.
  Variable doc : value.
  Notation T := (leads_in ce G).
  Notation met := (meets T d0 doc).
  Hypothesis G_fun : forall r e e', G r e -> G r e' -> e = e'.
  Hypothesis Hset : settled_in G d0.
  Hypothesis Hsealed : forall d m k, met d (VMap m) -> assoc "$ref" m = Some (VStr k) -> sealed re d m.

  Theorem seen_followed K : seen ce K d0 doc -> (forall r, K r -> done ce met G K r) ->
    forall d m k r, met d (VMap m) -> assoc "$ref" m = Some (VStr k) -> u_parse ce k = Some r -> exists e, G r e.
  Proof.
    intros S0 HK.
    assert (ONE : (forall r e x, G r e -> sp_draft e = Some x -> x = d0) -> forall d v, met d v -> d = d0).
    { intros H d v M. induction M as [|d m x M IH _|d m k d' x M IH _ (r & e & _ & HG & _ & ->)]; auto. destruct (sp_draft e) eqn:Es; eauto. }
    assert (A : forall d v, met d v -> seen ce K d v).
    { intros d v M. induction M as [|d m x M S Sub|d m k d' x M S E L]; auto.
      - assert (DEC : (exists k, assoc "$ref" m = Some (VStr k)) \/ forall k, assoc "$ref" m <> Some (VStr k)).
        { destruct (assoc "$ref" m) as [[| | | |t| | |]|]; eauto; right; discriminate. }
        inversion S as [|m0 S1 S2 S3]; subst. destruct DEC as [[k E]|N]; [|auto].
        destruct (proj2 (proj2 (Hsealed _ _ _ M E)) _ Sub) as (ds & n & E1 & E2). eapply S2; eauto.
      - pose proof (meets_ref T d0 doc d m k d' x M E L) as M'. destruct L as (r & e & Eu & HG & -> & Ed).
        inversion S as [|m0 S1 S2 S3]; subst. destruct (HK r (S1 _ _ E Eu)) as (d1 & m1 & k1 & e1 & N1 & N2 & N3 & N4 & N5 & N6).
        assert (e1 = e) by eauto. subst e1.
        assert (M1 : met (CompileVisit.target d1 e) (sp_doc e)) by (eapply meets_ref; [exact N1|exact N2|]; exists r, e; repeat (split; auto)).
        assert (ED : match sp_draft e with Some d => d | None => d end = CompileVisit.target d1 e).
        { destruct Hset as [H|H]; [unfold CompileVisit.target; destruct (sp_draft e) eqn:Es; [auto|destruct (H _ _ HG Es)]|]. rewrite (ONE H _ _ M'), (ONE H _ _ M1). auto. }
        rewrite ED. auto. }
    intros d m k r M E Eu. pose proof (A _ _ M) as S. inversion S as [|m0 S1 S2 S3]; subst. destruct (HK r (S1 _ _ E Eu)) as (d1 & m1 & k1 & e & N1 & N2 & N3 & N4 & _). eauto.
  Qed.
End Followed.

Section Dangling.
  Variable ce : cenv.
  Hypothesis HL : fetch_laws ce.
  Variable p0 : pool.
  Hypothesis Hp : forall r e, assoc r p0 = Some e -> doc_ok (sp_doc e).
  Variable doc : value.
  Hypothesis Hdoc : doc_ok doc.
  Variable d0 : draft.
  Notation lim := (e_ratlim (c_go ce)).
  Notation re := (fun p => e_re_ok (c_go ce) p = true).
  Notation url := (fun s => u_parse ce s <> None).
  Notation mod_ := (all_numbers (moderate lim)).
  Notation T := (heads_to ce p0 doc).
  Notation met := (meets T d0 doc).
  Notation reached := (reached ce p0 doc).

  Lemma met_reached d v : met d v -> doc_ok v /\ forall k r, mentions v k -> u_parse ce k = Some r -> reached r.
  Proof.
    induction 1 as [|d m x _ IH S|d m k d' x _ IH E L].
    - split; auto. intros k r. apply reached_root.
    - destruct IH as [H1 H2]. apply inside_subschema in S. split; [eapply inside_doc_ok; eauto|]. intros k r M. apply H2. eapply inside_mentions; eauto.
    - destruct L as (r & e & _ & [R HF] & -> & _). split; [eapply finds_doc_ok; eauto; eapply reached_text; eauto|]. intros k' r' M E'. eapply reached_on; eauto.
  Qed.
  Lemma ref_reached d m k r : met d (VMap m) -> assoc "$ref" m = Some (VStr k) -> u_parse ce k = Some r -> reached r.
  Proof. intros H Er Eu. apply (proj2 (met_reached _ _ H) k r); auto. apply mentions_assoc. auto. Qed.

  Theorem parse_dangles fuel o docref p : either_way ce p0 doc -> (forall d v, met d v -> mod_ v) -> fair o -> grown ce p0 p ->
    match parse ce fuel o docref d0 doc (CState [] [] p []) with
    | CErr e _ => (exists d v, met d v /\ blamed re url same d v e) \/
                  exists d m k, met d (VMap m) /\ assoc "$ref" m = Some (VStr k) /\ dangles ce p0 k e
    | _ => True
    end.
  Proof.
    intros Hway Hmod F KP. pose proof HL as (Hinh & _).
    apply (parse_blames ce (fun b s r => Hinh b r s) met (grown ce p0) (fun e => (exists d v, met d v /\ blamed re url same d v e) \/
      exists d m k, met d (VMap m) /\ assoc "$ref" m = Some (VStr k) /\ dangles ce p0 k e)); auto.
    - intros d v H. split; [apply (met_reached d v H)|apply (Hmod d v H)].
    - intros d m x. apply meets_sub.
    - intros d v e H Hb. left. eauto.
    - intros d m k r H Er Eu o' F' s Hps. pose proof (ref_reached _ _ _ _ H Er Eu) as R.
      destruct (Hway r R) as [[e HF]|[x HX]].
      + destruct (GetDocument_finds ce HL p0 o' r e s F' (reached_text ce HL p0 Hp doc Hdoc r R) (reached_parse ce HL p0 doc r R) Hps HF) as (s' & -> & K' & _).
        split; auto. eapply meets_ref; eauto. exists r, e. repeat (split; auto).
      + destruct (GetDocument_lost ce HL p0 o' r x s F' (reached_text ce HL p0 Hp doc Hdoc r R) (reached_parse ce HL p0 doc r R) Hps HX) as (s' & -> & K').
        right. exists d, m, k. split; auto. split; auto. exists r. auto.
    - constructor.
  Qed.

  Variable lib : pool.
  Hypothesis Hch : charted ce p0 lib doc.
  Lemma charted_either : either_way ce p0 doc.
  Proof. intros r R. destruct (Hch r R) as (e & _ & [H|H]); eauto. Qed.
  Lemma met_listed d v : met d v -> exists x, In x (lib_docs doc lib) /\ inside x v.
  Proof.
    induction 1 as [|d m x _ IH S|d m k d' x _ IH E L].
    - exists doc. split; [left; auto|constructor].
    - destruct IH as (y & H1 & H2). exists y. split; auto. eapply inside_trans; eauto. eapply inside_subschema; eauto.
    - destruct L as (r & e & _ & [R HF] & -> & _). exists (sp_doc e). split; [|constructor].
      right. destruct (Hch r R) as (e' & Hin & [HF'|[z HX]]); [|destruct (finds_lost ce p0 r e z HF HX)].
      rewrite (finds_fun ce p0 r e e' HF HF'). apply in_map_iff. exists (r, e'). auto.
  Qed.
  Notation all_right := (forall d v, met d v -> right ce d v).
  Notation all_lead := (forall d m k, met d (VMap m) -> assoc "$ref" m = Some (VStr k) -> exists d' x, T d k d' x).
  Lemma lost_no_lead d m k r x : all_lead -> met d (VMap m) -> assoc "$ref" m = Some (VStr k) -> u_parse ce k = Some r -> lost ce p0 r x -> False.
  Proof.
    intros A H Er Eu HX. destruct (A d m k H Er) as (d' & y & r' & e & Eu' & [_ HF] & _). assert (r' = r) by congruence. subst. exact (finds_lost ce p0 r e x HF HX).
  Qed.

  Theorem parse_charted fuel o docref p : fair o -> lib_fuel doc lib < fuel -> grown ce p0 p ->
    match parse ce fuel o docref d0 doc (CState [] [] p []) with
    | COk _ _ => mod_ doc -> read_ok re url d0 doc
    | CErr _ _ => ~ (all_right /\ all_lead)
    | CPanic => ~ forall d v, met d v -> tame ce v
    | CNoFuel => False
    end.
  Proof.
    intros F Hf KP. pose proof HL as (Hinh & _).
    pose proof (parse_total ce (fun b s r => Hinh b r s) met (map fst lib) (max_size (lib_docs doc lib)) (grown ce p0) (~ (all_right /\ all_lead)) (~ forall d v, met d v -> tame ce v) False) as P.
    match type of P with ?A -> _ => assert (H1 : A) end.
    { intros d v H. destruct (met_listed d v H) as (x & H1 & H2). split; [apply (met_reached d v H)|]. right. exact (Nat.le_trans _ _ _ (inside_size _ _ H2) (max_size_le _ _ H1)). }
    specialize (P H1 (fun d m x H S => meets_sub _ d0 doc d m x H S)).
    specialize (P (fun d v H N A => N (proj1 A d v H)) (fun d v H N A => N (A d v H))).
    match type of P with ?A -> _ => assert (HW : A) end.
    { intros d m k r H Er Eu. pose proof (ref_reached _ _ _ _ H Er Eu) as R. destruct (Hch r R) as (e & Hin & C). split.
      - right. apply in_map_iff. exists (r, e). auto.
      - intros n o' F' s Hps Hl. destruct C as [HF|[x HX]].
        + destruct (GetDocument_finds ce HL p0 o' r e s F' (reached_text ce HL p0 Hp doc Hdoc r R) (reached_parse ce HL p0 doc r R) Hps HF) as (s' & -> & K' & R').
          split; auto. split; [unfold left in *; rewrite R'; auto|]. eapply meets_ref; eauto. exists r, e. repeat (split; auto).
        + destruct (GetDocument_lost ce HL p0 o' r x s F' (reached_text ce HL p0 Hp doc Hdoc r R) (reached_parse ce HL p0 doc r R) Hps HX) as (s' & -> & K').
          split; auto. intros [_ A]. exact (lost_no_lead _ _ _ _ _ A H Er Eu HX). }
    specialize (P HW fuel o docref d0 doc p F KP (meets_root _ _ _)). rewrite map_length in P. specialize (P (or_intror Hf)).
    destruct (parse _ _ _ _ _ _ _) as [x s'|e s'| |]; auto; apply P.
  Qed.

  Theorem parse_resolved fuel o docref p id s : fair o -> grown ce p0 p ->
    (forall d v, met d v -> mod_ v) -> settled_in (SpecFetch.found ce p0 doc) d0 ->
    (forall d m k, met d (VMap m) -> assoc "$ref" m = Some (VStr k) -> sealed re d m) ->
    parse ce fuel o docref d0 doc (CState [] [] p []) = COk id s -> all_right /\ all_lead.
  Proof.
    intros F KP Hmod Hone Hseal E. pose proof HL as (Hinh & _).
    assert (WG : forall d m k r, met d (VMap m) -> assoc "$ref" m = Some (VStr k) -> u_parse ce k = Some r ->
      forall o s, fair o -> grown ce p0 (st_pool s) ->
        (exists e s', GetDocument ce o r s = COk e s' /\ grown ce p0 (st_pool s') /\ st_refs s' = st_refs s /\ SpecFetch.found ce p0 doc r e) \/
        (exists x s', GetDocument ce o r s = CErr x s' /\ grown ce p0 (st_pool s'))).
    { intros d m k r H Er Eu o' s' F' Hps. pose proof (ref_reached _ _ _ _ H Er Eu) as R.
      destruct (charted_either r R) as [[e HF]|[x HX]].
      - left. destruct (GetDocument_finds ce HL p0 o' r e s' F' (reached_text ce HL p0 Hp doc Hdoc r R) (reached_parse ce HL p0 doc r R) Hps HF) as (s2 & Eg & K' & R').
        exists e, s2. repeat (split; auto).
      - right. destruct (GetDocument_lost ce HL p0 o' r x s' F' (reached_text ce HL p0 Hp doc Hdoc r R) (reached_parse ce HL p0 doc r R) Hps HX) as (s2 & Eg & K'). eauto. }
    destruct (parse_vis ce (fun b s r => Hinh b r s) met (grown ce p0) (SpecFetch.found ce p0 doc)) with (fuel := fuel) (o := o) (docref := docref) (d := d0) (doc := doc) (p := p) (id := id) (s' := s)
      as (S0 & R0 & HK); auto.
    - intros d v H. apply (met_reached d v H).
    - intros d m x. apply meets_sub.
    - intros d m k r e H Er Eu HG. eapply meets_ref; [exact H|exact Er|]. exists r, e. repeat (split; auto).
    - intros d m k r H Er Eu o' s1 e s2 F' P1 Eg. destruct (WG _ _ _ _ H Er Eu o' s1 F' P1) as [(e' & s' & Eg' & X)|(x & s' & Eg' & X)]; rewrite Eg in Eg'; [|discriminate]. injection Eg' as <- <-. exact X.
    - intros d m k r H Er Eu o' s1 e s2 F' P1 Eg. destruct (WG _ _ _ _ H Er Eu o' s1 F' P1) as [(e' & s' & Eg' & X)|(x & s' & Eg' & X)]; rewrite Eg in Eg'; [discriminate|]. injection Eg' as <- <-. exact X.
    - constructor.
    - assert (FF : forall r e e', SpecFetch.found ce p0 doc r e -> SpecFetch.found ce p0 doc r e' -> e = e') by (intros r e e' [_ X] [_ Y]; exact (finds_fun ce p0 r e e' X Y)).
      assert (AR : all_right) by (apply (seen_right ce (SpecFetch.found ce p0 doc) d0 doc) with (K := known s); auto).
      split; auto. intros d m k H Er. destruct (u_parse ce k) as [r|] eqn:Eu.
      + destruct (seen_followed ce (SpecFetch.found ce p0 doc) d0 doc FF Hone Hseal (known s) S0 HK d m k r H Er Eu) as [e HG]. eexists. eexists. exists r, e. repeat (split; auto).
      + destruct (AR _ _ H) as [_ (X & _)]. unfold head_shapes, ok_ref, kw in X. exfalso.
        assert (Z : exists s, VStr k = VStr s /\ u_parse ce s <> None) by (apply X; auto). destruct Z as (s' & Z & N). injection Z as <-. auto.
  Qed.
End Dangling.

Section SourceLost.
  Variable w : world.
  Hypothesis HU : url_laws w.
  Hypothesis HW : web_laws w.
  Notation lim := (e_ratlim (w_go w)).
  Notation re := (fun p => e_re_ok (w_go w) p = true).
  Notation url := (fun s => w_parse w s <> None).

  Theorem comes_dangles fuel o sl l p doc e sl' :
    docs_ok w p doc -> comes_to w fuel o sl l p doc -> either_way (view w sl l) p doc ->
    let met := meets (heads_to (view w sl l) p doc) (root_draft w sl doc) doc in
    (forall d v, met d v -> all_numbers (moderate lim) v) ->
    Compile w fuel o sl l = LErr e sl' ->
    (exists d v, met d v /\ blamed re url same d v e) \/
    exists d m k, met d (VMap m) /\ assoc "$ref" m = Some (VStr k) /\ dangles (view w sl l) p k e.
  Proof.
    intros (H1 & H2 & H3) (p1 & o1 & ref & F1 & Gr & EC) Hway met Hmod E.
    pose proof (web_fetch_laws w (with_factory (LoaderFactory l) sl) HU HW) as HL. fold (view w sl l) in HL.
    pose proof (parse_dangles (view w sl l) HL p H1 doc H2 (root_draft w sl doc) fuel o1 ref p1 Hway Hmod F1 Gr) as P.
    rewrite E in EC. destruct (parse (view w sl l) fuel o1 ref _ doc _) as [id s|e' s| |]; try discriminate. injection EC as -> _. exact P.
  Qed.
  Theorem comes_resolves fuel o sl l p doc lib :
    docs_ok w p doc -> comes_to w fuel o sl l p doc ->
    charted (view w sl l) p lib doc -> lib_fuel doc lib < fuel ->
    let T := heads_to (view w sl l) p doc in let met := meets T (root_draft w sl doc) doc in
    (forall d v, met d v -> all_numbers (moderate lim) v) -> settled_in (SpecFetch.found (view w sl l) p doc) (root_draft w sl doc) ->
    (forall d m k, met d (VMap m) -> assoc "$ref" m = Some (VStr k) -> sealed re d m) ->
    (exists sch sl', Compile w fuel o sl l = LOk sch sl') <->
    (forall d v, met d v -> right (view w sl l) d v) /\
    (forall d m k, met d (VMap m) -> assoc "$ref" m = Some (VStr k) -> exists d' x, T d k d' x).
  Proof.
    intros (H1 & H2 & H3) (p1 & o1 & ref & F1 & Gr & EC) Hch Hfuel T met Hmod Hone Hseal.
    pose proof (web_fetch_laws w (with_factory (LoaderFactory l) sl) HU HW) as HL. fold (view w sl l) in HL.
    pose proof (parse_charted (view w sl l) HL p H1 doc H2 (root_draft w sl doc) lib Hch fuel o1 ref p1 F1 Hfuel Gr) as P.
    pose proof (parse_resolved (view w sl l) HL p H1 doc H2 (root_draft w sl doc) lib Hch fuel o1 ref p1) as Q. rewrite EC.
    destruct (parse (view w sl l) fuel o1 ref _ doc _) as [id s|e s| |].
    - split; [|intros _; eauto]. intros _. apply (Q id s); auto.
    - split; [intros (sch & sl' & X); discriminate|]. intros X. destruct (P X).
    - split; [intros (sch & sl' & X); discriminate|]. intros [X _]. destruct P. intros d v M. destruct (X d v M) as [Y1 Y2]. split; auto.
      intros m -> [[b Eb]|(l0 & t & Et & Hin)].
      + destruct Y2 as ((_ & Y & _) & _). destruct (Y _ Eb) as [ds Z]. discriminate.
      + destruct Y2 as (_ & (Y & _) & _). destruct (Y _ Et) as [(t0 & Z & _)|(l1 & Z & _)]; [discriminate|]. unfold texts in Z. injection Z as ->.
        apply in_map_iff in Hin. destruct Hin as (x & Z & _). discriminate.
    - destruct P.
  Qed.
  (** It returns, and if nothing met is beyond the library without a panic. *)
  Theorem comes_charted fuel o sl l p doc lib :
    docs_ok w p doc -> comes_to w fuel o sl l p doc ->
    charted (view w sl l) p lib doc -> lib_fuel doc lib < fuel ->
    Compile w fuel o sl l <> LNoFuel /\
    (Compile w fuel o sl l = LPanic -> ~ forall d v, meets (heads_to (view w sl l) p doc) (root_draft w sl doc) doc d v -> tame (view w sl l) v).
  Proof.
    intros (H1 & H2 & H3) (p1 & o1 & ref & F1 & Gr & EC) Hch Hfuel.
    pose proof (web_fetch_laws w (with_factory (LoaderFactory l) sl) HU HW) as HL. fold (view w sl l) in HL.
    pose proof (parse_charted (view w sl l) HL p H1 doc H2 (root_draft w sl doc) lib Hch fuel o1 ref p1 F1 Hfuel Gr) as P. rewrite EC.
    destruct (parse (view w sl l) fuel o1 ref _ doc _) as [id s|e s| |]; split; try discriminate; auto; destruct P.
  Qed.
End SourceLost.
