(** What a compiled schema reports depends only on what its document says. *)
From Verif Require Export LoadTotal CompileAlike CompileKnown.
Open Scope nat_scope.

(** The drafts recorded for the documents at hand, and that of the root. *)
Definition known_draft (p : pool) (d1 d : draft) : Prop := (exists r e, assoc r p = Some e /\ sp_draft e = Some d) \/ d = d1.
Lemma locates_draft ce p d1 d : lib_draft (locates ce p) d1 d -> known_draft p d1 d.
Proof.
  intros [(r & e & [H|(_ & b & ts & x & Hb & _ & _ & ->)] & E)|E]; [left; eauto| |right; auto].
  cbn [sp_draft] in E. left; eauto.
Qed.
Lemma draft_locates ce p d1 d : known_draft p d1 d -> lib_draft (locates ce p) d1 d.
Proof. intros [(r & e & H & E)|E]; [left; exists r, e; split; [left; auto|auto]|right; auto]. Qed.

(** The documents in play mention only certain references. *)
Section Told.
  Variable ce : cenv.
  Variable p0 : pool.
  Variable d1 : draft.
  Variable K : string -> Prop.
  Hypothesis Hdocs : forall r e, assoc r p0 = Some e -> doc_ok (sp_doc e) /\ closed_refs ce p0 (sp_doc e).
  Hypothesis HK : forall r e, assoc r p0 = Some e -> forall k, mentions (sp_doc e) k -> K k.
  Definition told (v : value) : Prop := closed_refs ce p0 v /\ forall k, mentions v k -> K k.
  Lemma told_arr l : told (VArr l) -> Forall told l.
  Proof. intros [H1 H2]. apply (closed_in_arr ce (locates ce p0)) in H1. rewrite Forall_forall in *. intros x Hx. split; [apply (H1 _ Hx)|]. intros k M. apply H2. eapply mentions_arr; eauto. Qed.
  Lemma told_map m : told (VMap m) -> Forall (fun e => told (snd e)) m.
  Proof. intros [H1 H2]. apply (closed_in_map ce (locates ce p0)) in H1. rewrite Forall_forall in *. intros [n x] Hx. split; [apply (H1 _ Hx)|]. intros k M. apply H2. eapply mentions_map; eauto. Qed.
  Definition told_policy : policy := Policy (known_draft p0 d1) told (known_pool ce p0) told_arr told_map.
  Lemma told_fetch o m k r s dsp s' : fair o -> good told_policy (VMap m) -> assoc "$ref" m = Some (VStr k) -> u_parse ce k = Some r ->
    py_pool told_policy (st_pool s) -> GetDocument ce o r s = COk dsp s' ->
    py_pool told_policy (st_pool s') /\ good told_policy (sp_doc dsp) /\ (forall x, sp_draft dsp = Some x -> told_policy x).
  Proof.
    intros F [Hd [Hc Hk]] Em Eu Hp E. pose proof E as E0.
    destruct (known_fetch ce p0 d1 Hdocs o m k r s dsp s' F (conj Hd Hc) Em Eu Hp E) as (A & [B B'] & C).
    eapply GetDocument_known in E; [|exact Hp|exact (Hc _ _ (mentions_assoc _ _ Em) Eu)]. destruct E as [_ L].
    split; auto. split; [|intros x Ex; apply (locates_draft ce), C; auto]. split; auto. split; [exact B'|]. intros t M. destruct L as [L|(_ & b & ts & x & Hb & _ & Px & Ee)].
    - eapply HK; eauto.
    - eapply HK; [exact Hb|]. subst dsp. eapply inside_mentions; [eapply inside_points; exact Px|exact M].
  Qed.
  Lemma told_known s : wf ce told_policy s -> wf ce (known_policy ce p0 d1) s.
  Proof.
    intros (W1 & W2 & W3 & W4). split; auto. split; [exact W2|]. split.
    - intros id d x Kx. destruct (W3 _ _ _ Kx) as [[A [B _]] C]. split; [split; [exact A|exact B]|exact (draft_locates _ _ _ _ C)].
    - intros r rid E. destruct (W4 _ _ E) as (d & x & Kx & M). exists d, x. split; [exact Kx|]. destruct M as (o & s1 & dsp & s2 & d0 & M1 & M2 & M3 & M4 & M5 & M6). exists o, s1, dsp, s2, d0. repeat (split; [solve [auto|exact (draft_locates _ _ _ _ M5)]|]). exact M6.
  Qed.
End Told.

(** The references occurring in the document and in those loaded before. *)
Definition mentioned_in (w : world) (sl : sloader) (doc : value) (k : string) : Prop :=
  mentions (resolve (w_parse w) (w_inherits w) "" doc) k \/ exists r e, assoc r (sl_pool sl) = Some e /\ mentions (sp_doc e) k.

(** A successful Compile: a state all of whose cells are described by schemas,
    with references leading where they should. *)
Lemma compile_state w : url_laws w -> forall sl fuel o l doc sch sl',
  fair o -> (forall fs s, l <> LRef fs s) -> loader_fit l -> fst (LoadJSON w l) = Some doc -> all_numbers (moderate (e_ratlim (w_go w))) doc ->
  sl_validate sl = false -> self_contained w sl doc -> Compile w fuel o sl l = LOk sch sl' ->
  let T := leads_to (cenv_of w sl) (known_documents w sl doc) (root_draft w sl doc) in
  exists ce pd s, c_go ce = w_go w /\ wf ce pd s /\ (forall j, j < length (st_heap s) -> cell ce s j) /\
    kid s (s_root sch) (root_draft w sl doc) (resolve (w_parse w) (w_inherits w) "" doc) /\ s_heap sch = st_heap s /\
    (forall i d m k, kid s i d (VMap m) -> assoc "$ref" m = Some (VStr k) -> mentioned_in w sl doc k /\ forall d' x, target ce s k d' x <-> T k d' x) /\
    (forall k d x d' x', T k d x -> T k d' x' -> d = d' /\ x = x') /\
    (forall i d x, kid s i d x -> known_draft (known_documents w sl doc) (root_draft w sl doc) d).
Proof.
  intros HU sl fuel o l doc sch sl' F Hl Hfit EL Hm Hv (Hf & Hpool & Hset & Hcl) EC T.
  pose proof (LoadJSON_doc_ok w l doc Hfit EL) as Hd.
  destruct (compile_parts w HU sl fuel o l doc sch sl' F Hl EL Hd Hm Hv Hf Hpool Hset Hcl EC) as (ce1 & p1 & o1 & s' & F1 & Hset1 & Hdocs & KP & Hdr & Hcl1 & T1 & Eg & E3 & Eh & Ep).
  set (K0 := mentioned_in w sl doc).
  assert (HK : forall r e, assoc r p1 = Some e -> forall k, mentions (sp_doc e) k -> K0 k).
  { intros r e E k M. rewrite <- Ep in E. unfold known_documents in E. rewrite assoc_app, assoc_entries in E.
    destruct (assoc r (documents _ _ "" doc)) as [x|] eqn:Ex; [|right; eauto].
    injection E as <-. cbn [sp_doc] in M. left. apply assoc_In in Ex. destruct Ex as [Ex|Ex]; [injection Ex as <- <-; auto|].
    exact (ids_mentions (cenv_of w sl) (proj1 (proj2 HU)) doc "" r x k Ex M). }
  set (d0 := root_draft w sl doc) in *.
  destruct (parse_ok ce1 (told_policy ce1 p1 d0 K0) (told_fetch ce1 p1 d0 K0 Hdocs HK) fuel o1 "" _ _ p1 _ s' F1 KP
    (conj Hdr (conj Hcl1 (fun k M => or_introl M))) (or_intror eq_refl) E3) as (E0 & W & L & K & C).
  pose proof (told_known ce1 p1 d0 K0 s' W) as W'.
  exists ce1, (told_policy ce1 p1 d0 K0), s'. rewrite E0. repeat match goal with |- _ /\ _ => apply conj end; auto.
  - intros i d m k Ki Er. split.
    + destruct W as (_ & _ & W3 & _). destruct (W3 _ _ _ Ki) as [[_ [_ M]] _]. apply M, mentions_assoc. auto.
    + intros d' x. rewrite (known_same ce1 p1 d0 Hset1 s' i d m k W' C Ki Er d' x). apply T1.
  - intros k d x d' x'. unfold T. rewrite <- !T1. apply leads_to_fun.
  - intros i d x Ki. destruct W as (_ & _ & W3 & _). destruct (W3 _ _ _ Ki) as [_ [(r & e & E & Ed)|E]]; [left; exists r, e; rewrite Ep; auto|right; auto].
Qed.

(** Same score, same errors up to their order. *)
Definition same_result (r r' : result) : Prop := score r = score r' /\ Permutation (errors r) (errors r').

Theorem compile_alike w : url_laws w -> forall sl1 fuel1 o1 l1 doc1 sch1 sl1' sl2 fuel2 o2 l2 doc2 sch2 sl2',
  fair o1 -> (forall fs s, l1 <> LRef fs s) -> loader_fit l1 -> fst (LoadJSON w l1) = Some doc1 -> all_numbers (moderate (e_ratlim (w_go w))) doc1 ->
  sl_validate sl1 = false -> self_contained w sl1 doc1 -> Compile w fuel1 o1 sl1 l1 = LOk sch1 sl1' ->
  fair o2 -> (forall fs s, l2 <> LRef fs s) -> loader_fit l2 -> fst (LoadJSON w l2) = Some doc2 -> all_numbers (moderate (e_ratlim (w_go w))) doc2 ->
  sl_validate sl2 = false -> self_contained w sl2 doc2 -> Compile w fuel2 o2 sl2 l2 = LOk sch2 sl2' ->
  let T1 := leads_to (cenv_of w sl1) (known_documents w sl1 doc1) (root_draft w sl1 doc1) in
  let T2 := leads_to (cenv_of w sl2) (known_documents w sl2 doc2) (root_draft w sl2 doc2) in
  alike T1 (root_draft w sl1 doc1) (resolve (w_parse w) (w_inherits w) "" doc1) (root_draft w sl2 doc2) (resolve (w_parse w) (w_inherits w) "" doc2) ->
  (forall k d x d' y, mentioned_in w sl1 doc1 k -> mentioned_in w sl2 doc2 k -> T1 k d x -> T2 k d' y -> alike T1 d x d' y) ->
  forall o o' v r, fair o -> fair o' -> wf_value v -> returns (w_go w) (s_heap sch1) (s_root sch1) o v r ->
  exists r', returns (w_go w) (s_heap sch2) (s_root sch2) o' v r' /\ same_result r r'.
Proof.
  intros HU sl1 fuel1 o1 l1 doc1 sch1 sl1' sl2 fuel2 o2 l2 doc2 sch2 sl2' F1 Hl1 Hfit1 EL1 Hm1 Hv1 SC1 EC1 F2 Hl2 Hfit2 EL2 Hm2 Hv2 SC2 EC2 T1 T2 A HT o o' v r F F' W [k E].
  destruct (compile_state w HU sl1 fuel1 o1 l1 doc1 sch1 sl1' F1 Hl1 Hfit1 EL1 Hm1 Hv1 SC1 EC1) as (ce1 & pd1 & s1 & G1 & W1 & C1 & K1 & E1 & X1 & Y1 & _).
  destruct (compile_state w HU sl2 fuel2 o2 l2 doc2 sch2 sl2' F2 Hl2 Hfit2 EL2 Hm2 Hv2 SC2 EC2) as (ce2 & pd2 & s2 & G2 & W2 & C2 & K2 & E2 & X2 & Y2 & _).
  fold T1 in X1, Y1. fold T2 in X2, Y2. rewrite E1 in E. rewrite E2. unfold validateDocument in E.
  assert (HG : c_go ce1 = c_go ce2) by congruence.
  assert (B : forall i j n, cells_alike (kid s1) (kid s2) (alike T1) i j -> nth_error (st_heap s1) i = Some n -> _) by
    (refine (cells_bisim ce1 ce2 HG pd1 pd2 s1 s2 W1 W2 C1 C2 T1 (fun i d m k Ki Er => proj2 (X1 i d m k Ki Er)) Y1 _);
     intros i d m j d' m' t Ki Kj Er Er' d1 x d2 y H1 H2; destruct (X1 _ _ _ _ Ki Er) as [M1 Z1], (X2 _ _ _ _ Kj Er') as [M2 Z2]; apply (HT t); [exact M1|exact M2|apply Z1; exact H1|apply Z2; exact H2]).
  destruct (validateRecursive_bisim (w_go w) (st_heap s1) (st_heap s2) _ _ (same_value_rel (w_go w)) B k o o' (s_root sch1) (s_root sch2) v v _ F F'
    (ex_intro _ _ (ex_intro _ _ (ex_intro _ _ (ex_intro _ _ (conj K1 (conj K2 A)))))) (conj eq_refl W) r E) as (r' & E' & Hs & l & P & HF).
  exists r'. split; [exists k; exact E'|]. split; auto. rewrite P. replace (errors r') with l; auto.
  clear - HF. induction HF as [|a b l l' (H1 & H2 & H3 & H4 & _) _ IH]; auto. f_equal; auto. destruct a, b; simpl in *; congruence.
Qed.

(** Compiling the same document twice, whatever the iteration orders. *)
Theorem compile_same w : url_laws w -> forall sl fuel1 o1 l1 sch1 sl1' fuel2 o2 l2 sch2 sl2' doc,
  fair o1 -> (forall fs s, l1 <> LRef fs s) -> loader_fit l1 -> fst (LoadJSON w l1) = Some doc -> all_numbers (moderate (e_ratlim (w_go w))) doc ->
  sl_validate sl = false -> self_contained w sl doc -> Compile w fuel1 o1 sl l1 = LOk sch1 sl1' ->
  fair o2 -> (forall fs s, l2 <> LRef fs s) -> loader_fit l2 -> fst (LoadJSON w l2) = Some doc -> Compile w fuel2 o2 sl l2 = LOk sch2 sl2' ->
  forall o o' v r, fair o -> fair o' -> wf_value v -> returns (w_go w) (s_heap sch1) (s_root sch1) o v r ->
  exists r', returns (w_go w) (s_heap sch2) (s_root sch2) o' v r' /\ same_result r r'.
Proof.
  intros HU sl fuel1 o1 l1 sch1 sl1' fuel2 o2 l2 sch2 sl2' doc F1 Hl1 Hfit1 EL1 Hm Hv SC EC1 F2 Hl2 Hfit2 EL2 EC2 o o' v r F F' W [k E].
  destruct (compile_state w HU sl fuel1 o1 l1 doc sch1 sl1' F1 Hl1 Hfit1 EL1 Hm Hv SC EC1) as (ce1 & pd1 & s1 & G1 & W1 & C1 & K1 & E1 & X1 & Y1 & _).
  destruct (compile_state w HU sl fuel2 o2 l2 doc sch2 sl2' F2 Hl2 Hfit2 EL2 Hm Hv SC EC2) as (ce2 & pd2 & s2 & G2 & W2 & C2 & K2 & E2 & X2 & _ & _).
  rewrite E1 in E. rewrite E2. unfold validateDocument in E.
  assert (HG : c_go ce1 = c_go ce2) by congruence.
  assert (B : forall i j n, cells_alike (kid s1) (kid s2) same_source i j -> nth_error (st_heap s1) i = Some n -> _) by
    (refine (cells_same ce1 ce2 HG pd1 pd2 s1 s2 W1 W2 C1 C2 _);
     intros i j d m t Ki Kj Er d1 x d2 y H1 H2; eapply Y1; [apply (proj2 (X1 _ _ _ _ Ki Er)); exact H1|apply (proj2 (X2 _ _ _ _ Kj Er)); exact H2]).
  destruct (validateRecursive_bisim (w_go w) (st_heap s1) (st_heap s2) _ _ (same_value_rel (w_go w)) B k o o' (s_root sch1) (s_root sch2) v v _ F F'
    (ex_intro _ _ (ex_intro _ _ (ex_intro _ _ (ex_intro _ _ (conj K1 (conj K2 (conj eq_refl (conj eq_refl (kid_like ce1 pd1 s1 _ _ _ W1 C1 K1)))))))) ) (conj eq_refl W) r E) as (r' & E' & Hs & l & P & HF).
  exists r'. split; [exists k; exact E'|]. split; auto. rewrite P. replace (errors r') with l; auto.
  clear - HF. induction HF as [|a b l l' (H1 & H2 & H3 & H4 & _) _ IH]; auto. f_equal; auto. destruct a, b; simpl in *; congruence.
Qed.

(** A schema compiled from a document: meta-schema validation off, every number
    within range, every reference leading into the document or into documents
    added before. *)
Definition compiled_from (w : world) (sl : sloader) (doc : value) (sch : schema) : Prop :=
  exists fuel o l sl', fair o /\ (forall fs s, l <> LRef fs s) /\ loader_fit l /\ fst (LoadJSON w l) = Some doc /\
    all_numbers (moderate (e_ratlim (w_go w))) doc /\ sl_validate sl = false /\ self_contained w sl doc /\ Compile w fuel o sl l = LOk sch sl'.

Theorem compiled_alike w : url_laws w -> forall sl1 doc1 sch1 sl2 doc2 sch2,
  compiled_from w sl1 doc1 sch1 -> compiled_from w sl2 doc2 sch2 ->
  let T1 := leads_to (cenv_of w sl1) (known_documents w sl1 doc1) (root_draft w sl1 doc1) in
  let T2 := leads_to (cenv_of w sl2) (known_documents w sl2 doc2) (root_draft w sl2 doc2) in
  alike T1 (root_draft w sl1 doc1) (resolve (w_parse w) (w_inherits w) "" doc1) (root_draft w sl2 doc2) (resolve (w_parse w) (w_inherits w) "" doc2) ->
  (forall k d x d' y, mentioned_in w sl1 doc1 k -> mentioned_in w sl2 doc2 k -> T1 k d x -> T2 k d' y -> alike T1 d x d' y) ->
  forall o o' v r, fair o -> fair o' -> wf_value v -> returns (w_go w) (s_heap sch1) (s_root sch1) o v r ->
  exists r', returns (w_go w) (s_heap sch2) (s_root sch2) o' v r' /\ same_result r r'.
Proof.
  intros HU sl1 doc1 sch1 sl2 doc2 sch2 (fuel1 & o1 & l1 & sl1' & A1 & A2 & A3 & A4 & A5 & A6 & A7 & A8) (fuel2 & o2 & l2 & sl2' & B1 & B2 & B3 & B4 & B5 & B6 & B7 & B8).
  exact (compile_alike w HU sl1 fuel1 o1 l1 doc1 sch1 sl1' sl2 fuel2 o2 l2 doc2 sch2 sl2' A1 A2 A3 A4 A5 A6 A7 A8 B1 B2 B3 B4 B5 B6 B7 B8).
Qed.
Theorem compiled_same w : url_laws w -> forall sl doc sch1 sch2,
  compiled_from w sl doc sch1 -> compiled_from w sl doc sch2 ->
  forall o o' v r, fair o -> fair o' -> wf_value v -> returns (w_go w) (s_heap sch1) (s_root sch1) o v r ->
  exists r', returns (w_go w) (s_heap sch2) (s_root sch2) o' v r' /\ same_result r r'.
Proof.
  intros HU sl doc sch1 sch2 (fuel1 & o1 & l1 & sl1' & A1 & A2 & A3 & A4 & A5 & A6 & A7 & A8) (fuel2 & o2 & l2 & sl2' & B1 & B2 & B3 & B4 & B5 & B6 & B7 & B8).
  exact (compile_same w HU sl fuel1 o1 l1 sch1 sl1' fuel2 o2 l2 sch2 sl2' doc A1 A2 A3 A4 A5 A6 A7 A8 B1 B2 B3 B4 B8).
Qed.

(** A boolean document. *)
Theorem compiled_boolean w : url_laws w -> forall sl b sch, compiled_from w sl (VBool b) sch ->
  since6 (root_draft w sl (VBool b)) /\ forall o v, exists r, returns (w_go w) (s_heap sch) (s_root sch) o v r /\
    match b with
    | true => errors r = []
    | false => exists e, errors r = [e] /\ r_type e = FalseError /\ r_ctx e = [STRING_CONTEXT_ROOT] /\ r_value e = v
    end.
Proof.
  intros HU sl b sch (fuel & o & l & sl' & A1 & A2 & A3 & A4 & A5 & A6 & A7 & A8).
  destruct (compile_state w HU sl fuel o l (VBool b) sch sl' A1 A2 A3 A4 A5 A6 A7 A8) as (ce & pd & s & G & W & C & K & E & _).
  cbn [resolve] in K. destruct (kid_cell ce pd s W C _ _ _ K) as (n & En & _ & [Hd Hp]).
  split; [apply since6_ge; auto|]. intros o' v. rewrite <- E in En. destruct b.
  - exists new_result. split; auto. exists 1. unfold validateDocument. cbn [validateRecursive]. rewrite En. unfold validateNode. rewrite Hp. auto.
  - exists (emit FalseError [STRING_CONTEXT_ROOT] v []). split; [exists 1; unfold validateDocument; cbn [validateRecursive]; rewrite En; unfold validateNode; rewrite Hp; auto|].
    eexists. split; [reflexivity|]. auto.
Qed.

(** Keywords a draft does not know leave no trace in the compiled schema. *)
Theorem compiled_gated w : url_laws w -> forall sl doc sch, compiled_from w sl doc sch ->
  (forall r e d, assoc r (sl_pool sl) = Some e -> sp_draft e = Some d -> d = root_draft w sl doc) ->
  forall n, In n (s_heap sch) -> n_ref n = None ->
  (~ since6 (root_draft w sl doc) -> n_pass n = None /\ n_const n = None /\ n_contains n = None /\ n_propertyNames n = None) /\
  (~ since7 (root_draft w sl doc) -> n_if n = None /\ n_then n = None /\ n_else n = None \/ n_pass n <> None).
Proof.
  intros HU sl doc sch (fuel & o & l & sl' & A1 & A2 & A3 & A4 & A5 & A6 & A7 & A8) HD n Hn Nr.
  destruct (compile_state w HU sl fuel o l doc sch sl' A1 A2 A3 A4 A5 A6 A7 A8) as (ce & pd & s & G & W & C & K & E & _ & _ & HK).
  rewrite E in Hn. apply In_nth_error in Hn. destruct Hn as [i Hi]. destruct (C i (nth_error_lt _ _ _ Hi)) as (n' & d & x & Hi' & Ki & _ & Fn).
  assert (n' = n) by congruence. subst n'.
  assert (d = root_draft w sl doc).
  { destruct (HK _ _ _ Ki) as [(r & e & Er & Ed)|]; auto. unfold known_documents in Er. rewrite assoc_app, assoc_entries in Er. destruct (assoc r (documents _ _ _ _)); [|eauto].
    injection Er as <-. cbn [sp_draft] in Ed. unfold root_draft. rewrite Ed. auto. }
  subst d. destruct x as [|b| | | | |m|]; try tauto.
  - destruct Fn as [Fd Fp]. split; [intros N; apply since6_ge in Fd; contradiction|]. intros _. right. congruence.
  - destruct Fn as [Fp Fn]. destruct (assoc "$ref" m) as [y|].
    + destruct y; try tauto. destruct Fn as (r & rid & _ & _ & Er). congruence.
    + destruct Fn as [_ Fn]. unfold describes in Fn. repeat match goal with H : _ /\ _ |- _ => destruct H end.
      split; intros N.
      * assert (G6 : draft_ge6 (root_draft w sl doc) = false) by (destruct (draft_ge6 _) eqn:G6; auto; apply since6_ge in G6; contradiction).
        unfold const_ok, gated in *. rewrite G6 in *. auto.
      * assert (G7 : draft_ge7 (root_draft w sl doc) = false) by (destruct (draft_ge7 _) eqn:G7; auto; apply since7_ge in G7; contradiction).
        unfold gated in *. rewrite G7 in *. auto.
Qed.
