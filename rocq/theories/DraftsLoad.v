(** Which schemas Compile takes when it checks them against the meta-schemas. *)
From Verif Require Export DraftsProps MetaLoad LoadShape.
From Coq Require Import Lia.
Open Scope string_scope.
Open Scope list_scope.
Open Scope nat_scope.

  Lemma subschema_in d m x : subschema d m x -> schema_in d m x.
  Proof.
    intros S. destruct S as [ds n x E Hx|k ms n x Hk E Hx|k x Hk E N|ds n x E Hx N|x E N|k l x Hk E Hx|k x C Hk E|k x C Hk E|x E].
    - refine (in_member d m "definitions" ds n x _ E Hx). simpl; auto.
    - refine (in_member d m k ms n x _ E Hx). simpl in *; tauto.
    - refine (in_additional d m k x _ E _); [simpl in *; tauto|]. intros [_ K]. exact (N K).
    - exact (in_dependency d m ds n x E Hx N).
    - exact (in_items d m x E N).
    - refine (in_element d m k l x _ E Hx). simpl in *; tauto.
    - exact (in_since6 d m k x C Hk E).
    - exact (in_since7 d m k x C Hk E).
    - exact (in_not d m x E).
  Qed.
  Lemma schema_part_trans d x y z : schema_part d x y -> schema_part d y z -> schema_part d x z.
  Proof. intros H. induction H as [|m x y S _ IH]; intros K; auto. econstructor; eauto. Qed.
Lemma plain_denotes s n : plain_integer s n -> denotes s (inject_Z n).
Proof.
  intros [H|[-> ->]].
  - exists "", 1%Z, s, n, "", 0%nat, 0%Z, "", 0%Z. split; [cbn [append]; rewrite Pointer.append_empty; reflexivity|]. split; [left; auto|]. split; auto. split; [left; auto|]. split; [left; auto|].
    change (inject_Z 0 / inject_Z (10 ^ Z.of_nat 0))%Q with 0%Q. change (Qpower (10 # 1) 0) with 1%Q. change (inject_Z 1) with 1%Q. ring.
  - eapply denotes_ext; [apply (rat_of_denotes 10); [reflexivity|vm_compute; reflexivity]|reflexivity].
Qed.
Section Shape.
  Variable has : string -> string -> Prop.
  Variables re url : string -> Prop.
  Variable eqv : value -> value -> Prop.
  Variable d : draft.
  Hypothesis Hd : d <> Hybrid.

  Lemma distinct_pairs l : distinct eqv l -> ForallOrdPairs (fun a b => ~ eqv a b) l.
  Proof.
    unfold distinct. induction l as [|a l IH]; intros H; [constructor|]. constructor.
    - apply Forall_forall. intros b Hb. apply In_nth_error in Hb. destruct Hb as [j Ej]. apply (H 0 (S j)); [lia|reflexivity|exact Ej].
    - apply IH. intros i j x y L E1 E2. apply (H (S i) (S j)); [lia|exact E1|exact E2].
  Qed.
  Lemma lawful_kind x : lawful has eqv d x -> is_boolean x \/ is_object x.
  Proof. intros H. destruct H; [left|right]; eexists; eauto. Qed.

  Lemma lawful_shapes m : lawful has eqv d (VMap m) -> usable re url d m -> shapes re url eqv d m.
  Proof.
    intros L U. inversion L as [|m' LK LS]; subst m'. assert (LS' : forall x, schema_in d m x -> is_boolean x \/ is_object x) by (intros x Hx; apply lawful_kind, LS, Hx).
    unfold lawful_keywords, identified, annotated, bounded, listed, holding in LK. unfold usable in U. decompose [and] LK. decompose [and] U. clear LK U.
    assert (NN : forall k, kw m k non_negative_integer -> plainly m k -> ok_natural m k).
    { intros k K1 K2 x E. destruct (K1 x E) as (n & Hn & _). exists n. apply (K2 x E). exact Hn. }
    assert (ID : ok_id url d m).
    { intros x E. assert (K : is_string x).
      { unfold id_keyword in E. destruct d; try congruence; match goal with K : ?C -> kw m ?k _, E : assoc ?k m = _ |- _ => assert (X : C) by (reflexivity || discriminate); pose proof (K X x E) as K' end; auto; destruct K' as (s & -> & _); eexists; eauto. }
      destruct K as [s ->]. exists s. split; auto. match goal with K : kw m (id_keyword d m) _ |- _ => exact (K _ E s eq_refl) end. }
    assert (EX : forall key k, kw m k (exclusive d m key) -> ok_exclusive d m key k).
    { intros key k K x E. destruct (K x E) as [(A & B & C)|[A B]]; [left|right]; auto. }
    assert (AR : forall k, kw m k non_empty_array -> kw m k is_array) by (intros k K x E; destruct (K x E) as (l & -> & _); eexists; eauto).
    assert (AD : forall k, In k ["additionalItems"; "additionalProperties"] -> ok_additional m k).
    { intros k Hk x E. destruct (boolean_or x) as [B|N]; auto. apply LS'. refine (in_additional d m k x Hk E _). intros [_ K]. exact (N K). }
    unfold shapes, head_shapes, plain_shapes, schema_shapes.
    repeat match goal with |- _ /\ _ => split end; auto.
    - intros x E. destruct (H25 x E) as [K|(l & K1 & _ & K2 & K3)]; [left; auto|right; exists l; auto].
    - intros x E. destruct (H9 x E) as (s & -> & _). exists s. split; auto. exact (H33 _ E s eq_refl).
    - intros x E. destruct (H22 x E) as (l & K1 & K2 & _). exists l. auto.
    - intros x E. destruct (H23 x E) as (l & -> & _ & K). exists l. split; auto. split; [exact (H46 _ E l eq_refl)|apply distinct_pairs; auto].
    - apply AD. simpl; auto.
    - intros x E. destruct (H30 x E) as (ps & -> & _). exists ps. split; auto. intros p y Hy. exact (H35 _ E ps p y eq_refl Hy).
    - intros x E. destruct (H32 x E) as (ds & -> & K). exists ds. split; auto. intros k a Ha. destruct (array_or a) as [A|N].
      + left. destruct (K k a Ha A) as (l & K1 & _). exists l. exact K1.
      + right. apply LS'. exact (in_dependency d m ds k a E Ha N).
    - intros x E. destruct (array_or x) as [A|N]; auto. right. apply LS'. exact (in_items d m x E N).
    - apply AD. simpl; auto.
  Qed.
  Lemma lawful_part x y : lawful has eqv d x -> schema_part d x y -> lawful has eqv d y.
  Proof. intros L H. induction H as [|m x y S _ IH]; auto. apply IH. inversion L; auto. Qed.
  (** A schema of the draft that the library can use has the shape Compile asks
      for. *)
  Theorem lawful_well_formed doc : lawful has eqv d doc -> (forall m, schema_part d doc (VMap m) -> usable re url d m) -> well_formed re url eqv d doc.
  Proof.
    intros L. induction L as [b H6|m LK LS IH]; intros U; [constructor; auto|].
    constructor; [apply lawful_shapes; [constructor; auto|apply U; constructor]|]. intros x Hx. apply subschema_in in Hx. apply IH; auto. intros m' P. apply U. econstructor; eauto.
  Qed.
  Lemma shapes_usable m : shapes re url eqv d m -> usable re url d m.
  Proof.
    assert (NN : forall k, ok_natural m k -> plainly m k).
    { intros k K x E n Hn. destruct (K x E) as (n' & s & -> & P & R). exists s. split; auto. assert (n = n'); [|subst; auto].
      destruct Hn as (s' & [= <-] & Dn). apply (inject_Z_injective n n'). exact (denotes_unique _ _ _ Dn (plain_denotes s n' P)). }
    unfold shapes, head_shapes, plain_shapes, schema_shapes, usable. intros H. decompose [and] H. clear H.
    repeat match goal with |- _ /\ _ => split end; auto.
    - intros x E s ->. match goal with K : ok_id url d m |- _ => destruct (K _ E) as (s' & [= <-] & K') end. exact K'.
    - intros x E s ->. match goal with K : ok_pattern re m |- _ => destruct (K _ E) as (s' & [= <-] & K') end. exact K'.
    - intros x E ps p y -> Hp. match goal with K : ok_patternProperties re m |- _ => destruct (K _ E) as (ps' & [= <-] & K') end. exact (K' _ _ Hp).
    - intros x E l ->. match goal with K : ok_enum eqv m |- _ => destruct (K _ E) as (l' & [= <-] & K' & _) end. exact K'.
  Qed.
  Lemma in_subschema m m' : schema_in d m (VMap m') -> subschema d m (VMap m').
  Proof.
    intros S. remember (VMap m') as x eqn:Ex. destruct S as [k ms n x Hk E Hx|ds n x E Hx N|k x Hk E N|x E N|k l x Hk E Hx|x E|k x C Hk E|k x C Hk E].
    - simpl in Hk. destruct Hk as [<-|Hk]; [exact (sub_definition d m ms n x E Hx)|exact (sub_member d m k ms n x Hk E Hx)].
    - exact (sub_dependency d m ds n x E Hx N).
    - refine (sub_additional d m k x _ E _); [simpl in *; tauto|]. subst x. intros [b K]. discriminate K.
    - exact (sub_items d m x E N).
    - refine (sub_element d m k l x _ E Hx). simpl in *; tauto.
    - exact (sub_not d m x E).
    - exact (sub_since6 d m k x C Hk E).
    - exact (sub_since7 d m k x C Hk E).
  Qed.
  (** Of the schemas of the draft, Compile takes exactly the usable ones. *)
  Theorem lawful_usable doc : lawful has eqv d doc -> (well_formed re url eqv d doc <-> forall m, schema_part d doc (VMap m) -> usable re url d m).
  Proof.
    intros L. split; [|apply lawful_well_formed; auto]. intros W m P. remember (VMap m) as y eqn:Ey. induction P as [x|m0 x y S P IH].
    - subst x. inversion W; subst. apply shapes_usable. auto.
    - subst y. inversion L as [|ml LK LS]; subst ml. inversion W as [|mw WK WS]; subst mw.
      assert (X : exists m1, x = VMap m1) by (inversion P; eexists; eauto). destruct X as [m1 ->]. apply IH; auto. apply WS, in_subschema. exact S.
  Qed.
End Shape.

Section Load.
  Variable w : world.
  Hypothesis HU : url_laws w.
  Hypothesis HW : web_laws w.
  Hypothesis HM : meta_urls w.
  Notation lim := (e_ratlim (w_go w)).
  Hypothesis Hlim : (0 <= lim)%Z.
  Notation re := (fun p => e_re_ok (w_go w) p = true).
  Notation url := (fun s => w_parse w s <> None).

  Lemma meta_root sl doc d : d <> Hybrid -> sl_auto sl = true -> meta_url w sl doc = meta_at d -> root_draft w sl doc = d.
  Proof.
    intros Hd Ha. unfold meta_url, root_draft, doc_draft. cbn [cenv_of c_autodetect u_parse]. rewrite Ha.
    assert (INJ : forall a b, meta_at a = meta_at b -> a = b) by (intros [] [] K; auto; discriminate K).
    unfold declared_url, named_draft. destruct doc as [| | | | | |m|]; try (cbn [String.eqb]; apply INJ).
    destruct (assoc "$schema" m) as [[| | | |t| | |]|]; try (cbn [String.eqb]; apply INJ).
    destruct (w_parse w t) as [r|]; [|cbn [String.eqb]; apply INJ].
    destruct (String.eqb_spec r "") as [->|N]; [intros K; apply INJ in K; exact K|]. intros ->. destruct d; try congruence; reflexivity.
  Qed.

  Section Plain.
    Variables (sl : sloader) (l : loader) (p : pool) (doc : value) (d : draft).
    Hypothesis NM : forall k, ~ mentions doc k.
    Lemma reached_none r : ~ reached (view w sl l) p doc r.
    Proof. intros R. induction R as [k r M E|r e k r' R IH HF M E]; [exact (NM k M)|exact IH]. Qed.
    Lemma heads_none d1 k d' x : ~ heads_to (view w sl l) p doc d1 k d' x.
    Proof. intros (r & e & _ & [R _] & _). exact (reached_none r R). Qed.
    Lemma within_weight d' x : within (heads_to (view w sl l) p doc d) d doc d' x -> weight x <= weight doc.
    Proof.
      induction 1 as [|d1 m x _ IH _ P|d1 m r d2 x _ IH _ K]; [lia|apply weight_part in P; lia|destruct (heads_none _ _ _ _ K)].
    Qed.
    Lemma depth_weight n : forall d' x, weight x < n -> depth (heads_to (view w sl l) p doc d) n (d', x).
    Proof.
      induction n as [|n IH]; intros d' x L; [lia|]. intros [d2 y] H. inversion H as [d1 m r d3 z E K|d1 m z N P]; subst; [destruct (heads_none _ _ _ _ K)|].
      apply IH. assert (Q : part d' m y) by (left; auto). apply weight_part in Q. lia.
    Qed.
    Lemma shallow_weight : shallow (heads_to (view w sl l) p doc d) (S (weight doc)) d doc.
    Proof. intros d' x W. apply depth_weight. apply within_weight in W. lia. Qed.
    Lemma meets_part d' x : meets (heads_to (view w sl l) p doc) d doc d' x -> d' = d /\ schema_part d doc x.
    Proof.
      induction 1 as [|d1 m x _ [-> IH] S|d1 m k d2 x _ _ _ K]; [split; [auto|constructor]| |destruct (heads_none _ _ _ _ K)].
      split; auto. eapply schema_part_trans; [exact IH|]. econstructor; [apply subschema_in; exact S|constructor].
    Qed.
    Lemma part_inside x y : schema_part d x y -> inside x y.
    Proof.
      induction 1 as [|m x y S _ IH]; [constructor|]. eapply inside_trans; [|exact IH].
      destruct S as [k ms n z Hk E Hz|ds n z E Hz N|k z Hk E N|z E N|k l0 z Hk E Hz|z E|k z C Hk E|k z C Hk E]; apply assoc_In in E; (eapply inside_map; [exact E|]);
        first [apply inside_refl|eapply inside_map; [exact Hz|apply inside_refl]|eapply inside_arr; [exact Hz|apply inside_refl]].
    Qed.
  End Plain.

  (** A document without references that Compile checks: it is taken exactly if
      it is a schema of its draft. *)
  Theorem checked_lawful fuel o sl l p doc d : checking w fuel o sl l p doc d -> d <> Hybrid -> (forall k, ~ mentions doc k) -> vsize doc < fuel ->
    (forall m, schema_part d doc (VMap m) -> usable re url d m) ->
    let ok := lawful (fun f s => fmt (w_go w) f (VStr s)) same d doc in
    (ok /\ exists sch sl', Compile w fuel o sl l = LOk sch sl') \/ (~ ok /\ exists es sl', Compile w fuel o sl l = LErr (EMeta es) sl').
  Proof.
    intros CH Hd NM Hf U ok. pose proof CH as (H1 & H2 & H3 & H4 & H5 & H6 & H7 & H8 & H9 & H10 & H11).
    destruct (compile_checked w HU HW HM Hlim fuel o sl l p doc d H1 H2 H3 H4 H5 H6 H7 H8 H9 H10 H11) as [DK K].
    assert (D : doc_ok doc) by apply DK.
    pose proof (conforms_lawful (w_go w) d doc Hd D) as CL.
    pose proof (meta_root sl doc d Hd H5 H10) as RD.
    destruct K as [[[C|C] _]|[[_ C] (es & sl' & HT & E & _)]]; [contradiction| |].
    - left. apply CL in C. split; [exact C|]. apply CL in C.
      destruct (checked_accepts w HU HW HM Hlim fuel o sl l p doc d [] (S (weight doc)) CH (or_intror C)) as (sch & p' & E & _).
      + intros r R. destruct (reached_none sl l p doc NM r R).
      + unfold lib_fuel. cbn [length]. lia.
      + left. intros r e [R _]. destruct (reached_none sl l p doc NM r R).
      + rewrite RD. intros d' x M. apply meets_part in M; auto. destruct M as [-> P]. split.
        * eapply inside_numbers; [apply (part_inside d doc x P)|]. apply DK.
        * pose proof (lawful_part _ _ d doc x (proj1 CL C) P) as L. destruct L as [b L6|m LK LS]; auto.
          eapply lawful_shapes; [exact Hd|constructor; eauto|]. apply U. exact P.
      + rewrite RD. apply shallow_weight; auto.
      + eauto.
    - right. split; [intros L; apply C; apply CL; exact L|eauto].
  Qed.
  Theorem checked_otherwise fuel o sl l p doc d : checking w fuel o sl l p doc d -> d <> Hybrid -> (forall es sl', Compile w fuel o sl l <> LErr (EMeta es) sl') ->
    lawful (fun f s => fmt (w_go w) f (VStr s)) same d doc.
  Proof.
    intros CH Hd N. pose proof CH as (H1 & H2 & H3 & H4 & H5 & H6 & H7 & H8 & H9 & H10 & H11).
    destruct (compile_checked w HU HW HM Hlim fuel o sl l p doc d H1 H2 H3 H4 H5 H6 H7 H8 H9 H10 H11) as [DK [[[C|C] _]|(_ & es & sl' & HT & E & _)]]; [contradiction| |destruct (N es sl' E)].
    apply conforms_lawful in C; auto. apply DK.
  Qed.
End Load.

(** Without Validate, a schema of the draft is taken exactly if it is usable. *)
Theorem usable_compiles : forall w, url_laws w -> forall has sl fuel o l doc d,
  fair o -> (forall fs s, l <> LRef fs s) -> loader_fit l -> fst (LoadJSON w l) = Some doc -> all_numbers (moderate (e_ratlim (w_go w))) doc ->
  (forall k, ~ mentions doc k) -> sl_validate sl = false -> sl_pool sl = [] -> NoDup (map fst (ids_of (w_parse w) (w_inherits w) "" doc)) ->
  enough_fuel w sl doc < fuel -> (sl_auto sl = true -> well_declared (w_parse w) doc) ->
  d = root_draft w sl doc -> d <> Hybrid -> lawful has same d doc ->
  ((exists sch sl', Compile w fuel o sl l = LOk sch sl') <->
   forall m, schema_part d doc (VMap m) -> usable (fun p => e_re_ok (w_go w) p = true) (fun s => w_parse w s <> None) d m).
Proof.
  intros w HU has sl fuel o l doc d F Hl Hfit EL Hm NM Hv Hp HN Hf Hw -> Hd L.
  rewrite (proj1 (compile_plain w HU sl fuel o l doc F Hl Hfit EL Hm NM Hv Hp HN Hf)). rewrite <- (lawful_usable has _ _ same _ Hd doc L). tauto.
Qed.
