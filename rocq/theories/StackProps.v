(** Schemas mean what the drafts say, with Go's libraries in place of every
    parameter. *)
From Coq Require Import Lia.
From Verif Require Import Meaning CompileSem CompileDepth LogicProps DraftsLoad SpecLogic CheckedMeta.
From Verif Require Import URLProps Codec FormatProps URIFormat MailProps RegexpDocs.
From Verif Require Import SpecFormat FormatRegex FormatIP FormatTime.
From Verif Require Export SpecLibrary ModelStack.
From Verif Require ModelRegexp SpecRegexp ModelMail.
Open Scope string_scope.
Open Scope list_scope.
Open Scope nat_scope.

(** ** Readings of patterns and formats that agree where they are asked *)
Section Readings.
  Variable same : value -> value -> Prop.
  Variable T : string -> draft -> value -> Prop.
  Variables (pat pat' : string -> string -> Prop) (fmt fmt' : string -> value -> Prop).
  (** What a schema object asks about an instance. *)
  Definition agree (m : list (string * value)) (v : value) : Prop :=
    (forall p s, assoc "pattern" m = Some (VStr p) -> v = VStr s -> (pat p s <-> pat' p s)) /\
    (forall ps p x o k e, assoc "patternProperties" m = Some (VMap ps) -> In (p, x) ps -> v = VMap o -> In (k, e) o -> (pat p k <-> pat' p k)) /\
    (forall f, assoc "format" m = Some (VStr f) -> (fmt f v <-> fmt' f v)).

  Lemma keywords_agree V d m v : agree m v -> (keywords pat fmt same V d m v <-> keywords pat' fmt' same V d m v).
  Proof.
    intros (A1 & A2 & A3).
    assert (E1 : s_format fmt m v <-> s_format fmt' m v).
    { apply kw_ext. intros x Hx. split; intros K f ->; apply (A3 f Hx); auto. }
    assert (E2 : s_pattern pat m v <-> s_pattern pat' m v).
    { apply kw_ext. intros x Hx. split; intros K p s -> Hv; apply (A1 p s Hx Hv); auto. }
    assert (E3 : s_patternProperties pat V d m v <-> s_patternProperties pat' V d m v).
    { apply kw_ext. intros x Hx. split; intros K ps o -> Hv p s k e Hp Hk H; apply (K ps o eq_refl Hv p s k e Hp Hk); apply (A2 ps p s o k e Hx Hp Hv Hk); auto. }
    assert (E4 : s_additionalProperties pat V d m v <-> s_additionalProperties pat' V d m v).
    { apply kw_ext. intros x Hx.
      assert (G : forall o k e, v = VMap o -> In (k, e) o -> (additional pat m k <-> additional pat' m k)).
      { intros o k e Hv Hk. unfold additional. rewrite (kw_ext m "patternProperties" _ (fun x => forall ps, x = VMap ps -> forall p s, In (p, s) ps -> ~ pat' p k)); [tauto|].
        intros y Hy. split; intros K ps -> p s Hp H; apply (K ps eq_refl p s Hp); apply (A2 ps p s o k e Hy Hp Hv Hk); auto. }
      split; intros K o Hv k e Hk H; apply (K o Hv k e Hk); apply (G o k e Hv Hk); auto. }
    unfold keywords. rewrite E1, E2, E3, E4. reflexivity.
  Qed.
  Lemma schema_sem_agree V d s v : (forall m, s = VMap m -> assoc "$ref" m = None \/ (forall r, assoc "$ref" m <> Some (VStr r)) -> agree m v) ->
    (schema_sem pat fmt same V T d s v <-> schema_sem pat' fmt' same V T d s v).
  Proof.
    intros H. unfold schema_sem. destruct s as [| | | | | |m|]; try tauto.
    destruct (assoc "$ref" m) as [y|] eqn:E; [|apply keywords_agree; auto].
    destruct y; try (apply keywords_agree; apply (H m eq_refl); right; intros; congruence). tauto.
  Qed.
  Theorem meaning_agree d0 s0 v0 : (forall d m v, needed T d0 s0 v0 d (VMap m) v -> (forall r, assoc "$ref" m <> Some (VStr r)) -> agree m v) ->
    (meaning pat fmt same T d0 s0 v0 <-> meaning pat' fmt' same T d0 s0 v0).
  Proof.
    intros HA.
    assert (G : forall q, Acc (subquestion T) q -> needed T d0 s0 v0 (fst (fst q)) (snd (fst q)) (snd q) ->
                 (meaning pat fmt same T (fst (fst q)) (snd (fst q)) (snd q) <-> meaning pat' fmt' same T (fst (fst q)) (snd (fst q)) (snd q))).
    { intros q Hq. induction Hq as [q Hq IH]. destruct q as [[d1 s1] v1]. cbn [fst snd] in *. intros N.
      assert (W : well_founded_at T d1 s1 v1) by (constructor; exact Hq).
      rewrite !meaning_rules by exact W.
      rewrite (schema_sem_ext pat fmt same T _ (meaning pat' fmt' same T)).
      - apply schema_sem_agree. intros m -> Hm. apply (HA d1); [exact N|]. destruct Hm as [Hm|Hm]; [congruence|exact Hm].
      - intros d' s' v' Ha. apply (IH (d', s', v')); [exact Ha|]. eapply needed_step; eauto. }
    split; intros H; pose proof H as [W _]; apply (G (d0, s0, v0) W); try exact H; constructor.
  Qed.
End Readings.

(** ** Parts of an instance are texts where it is *)
Lemma asks_std T d s v d' s' v' : asks T d s v d' s' v' -> std v -> std v'.
Proof.
  intros H. inversion H; subst; intros Hv; auto; inversion Hv; subst.
  - match goal with F : Forall std _ |- _ => rewrite Forall_forall in F; auto end.
  - match goal with F : Forall (fun e => _ /\ _) _, I : In (?k, v') _ |- _ => rewrite Forall_forall in F; apply (F _ I) end.
  - match goal with F : Forall (fun e => _ /\ _) _, I : In _ (map fst _) |- _ => rewrite Forall_forall in F; apply in_map_iff in I; destruct I as (e & <- & I); constructor; apply (F _ I) end.
Qed.
Lemma needed_std T d0 s0 v0 d s v : needed T d0 s0 v0 d s v -> std v0 -> std v.
Proof. intros H Hv. induction H; auto. eapply asks_std; eauto. Qed.

(** ** Go's libraries *)
Lemma pattern_reads ud lim p s : portable p -> utf8_text s -> (CompileSem.pat (go_libs ud lim) p s <-> pattern_says p s).
Proof.
  intros (r & q & D & Q) [cs Hs]. change (CompileSem.pat (go_libs ud lim) p s) with (ModelRegexp.re_MatchString ud p s = true). split.
  - intros H. exists r, q, cs. repeat split; auto. apply (portable_matches ud r q p cs s D Q Hs). exact H.
  - intros (r' & q' & cs' & D' & Q' & Hs' & H). apply (portable_matches ud r' q' p cs' s D' Q' Hs'). exact H.
Qed.
Section Formats.
  Variables (ud : ModelRegexp.unidata) (lim : Z).
  Notation fe := (go_fmt ModelMail.ParseAddress (ModelRegexp.re_compiles ud)).
  Lemma address_reads s : utf8_text s -> (ModelMail.ParseAddress s = true <-> address s).
  Proof.
    intros [cps H]. split; [intros A; exists cps; split; [exact H|]; apply (ParseAddress_exact cps s H); exact A|].
    intros (cps' & H' & A). apply (ParseAddress_exact cps' s H'). exact A.
  Qed.
  Lemma language_reads f L s : format_language f L -> utf8_text s -> (accepts fe f s <-> L s).
  Proof.
    intros H U. destruct H.
    - exact (date_right s).
    - apply accepts_time.
    - apply accepts_date_time.
    - exact (hostname_right s).
    - exact (address_reads s U).
    - exact (address_reads s U).
    - rewrite <- has_char_in. exact (ipv4_right s).
    - exact (ipv6_right s).
    - rewrite go_uri, go_uri_reference. reflexivity.
    - apply go_uri_reference.
    - rewrite accepts_iri, go_uri, go_uri_reference. reflexivity.
    - rewrite accepts_iri_reference. apply go_uri_reference.
    - rewrite go_template, go_uri_reference. reflexivity.
    - exact (uuid_right s).
    - exact (pointer_right s).
    - exact (relative_right s).
  Qed.
  Lemma known_language f c : assoc f (FormatCheckers fe) = Some c -> f = "regex" \/ exists L, format_language f L.
  Proof.
    intros H. apply assoc_In in H. apply (in_map fst) in H. cbn [map fst FormatCheckers In] in H.
    repeat (destruct H as [<-|H]; [first [left; reflexivity|right; eexists; constructor]|]). destruct H.
  Qed.
  Lemma format_reads f v : f <> "regex" -> std v -> (CompileSem.fmt (go_libs ud lim) f v <-> format_says f v).
  Proof.
    intros N Hv. change (CompileSem.fmt (go_libs ud lim) f v) with (f = "" \/ IsFormat (FormatCheckers fe) f v = true).
    assert (D : (exists s, v = VStr s) \/ forall s, v <> VStr s) by (destruct v; try (right; discriminate); left; eauto).
    destruct D as [[s ->]|D].
    - inversion Hv as [| | | |? U| |]; subst. split.
      + intros [->|H] L s' HL [= <-]; [inversion HL|]. apply (language_reads f L s HL U). exact H.
      + intros H. right. destruct (assoc f (FormatCheckers fe)) as [c|] eqn:E.
        * destruct (known_language f c E) as [->|[L HL]]; [congruence|]. apply (language_reads f L s HL U). exact (H L s HL eq_refl).
        * unfold IsFormat. rewrite E. reflexivity.
    - split; [intros _ L s _ E; destruct (D s E)|]. intros _. right. apply default_strings. exact D.
  Qed.

  (** The readings agree on shared notation. *)
  Lemma shared_agree m v : shared m -> std v -> agree (CompileSem.pat (go_libs ud lim)) pattern_says (CompileSem.fmt (go_libs ud lim)) format_says m v.
  Proof.
    intros (S1 & S2 & S3) Hv. split; [|split].
    - intros p s Hp ->. inversion Hv; subst. apply pattern_reads; eauto.
    - intros ps p x o k e Hp Hi -> Hk. inversion Hv as [| | | | | |? _ F]; subst. rewrite Forall_forall in F. apply pattern_reads; [eauto|]. exact (proj1 (F _ Hk)).
    - intros f Hf. apply format_reads; [congruence|exact Hv].
  Qed.
  Theorem library_meaning T d doc v : std v ->
    (forall d' m, within T d doc d' (VMap m) -> (forall r, assoc "$ref" m <> Some (VStr r)) -> shared m) ->
    (meaning (CompileSem.pat (go_libs ud lim)) (CompileSem.fmt (go_libs ud lim)) same T d doc v <-> meaning pattern_says format_says same T d doc v).
  Proof.
    intros Hv HS. apply meaning_agree. intros d' m v' N Nr. apply shared_agree; [|eapply needed_std; eauto].
    apply (HS d' m); [|exact Nr]. eapply needed_within; eauto.
  Qed.
End Formats.

(** ** Well-formed schemas with expressions in the shared notation *)
Definition well_shaped (ce : cenv) (d : draft) (x : value) : Prop :=
  all_numbers (moderate (e_ratlim (c_go ce))) x /\
  match x with VBool _ => since6 d | VMap m => shapes portable (fun s => u_parse ce s <> None) same d m | _ => False end.
Lemma shapes_weaken (re re' : string -> Prop) url d m : (forall p, re p -> re' p) -> shapes re url same d m -> shapes re' url same d m.
Proof.
  intros H (A & B & C). split; [exact A|]. unfold plain_shapes, schema_shapes, ok_pattern, ok_patternProperties in *. split.
  - intuition. intros x Hx. match goal with K : SpecSchema.kw m "pattern" _ |- _ => destruct (K x Hx) as (p & -> & Hp) end. eauto.
  - intuition. intros x Hx. match goal with K : SpecSchema.kw m "patternProperties" _ |- _ => destruct (K x Hx) as (ps & -> & Hp) end. eauto.
Qed.
Lemma well_shaped_right ce ud lim d x : c_go ce = go_libs ud lim -> well_shaped ce d x -> right ce d x.
Proof.
  intros E [A B]. split; [exact A|]. destruct x as [| | | | | |m|]; auto. eapply shapes_weaken; [|exact B].
  intros p (r & q & D & Q). rewrite E. exact (portable_compiles ud r q p D Q).
Qed.
Lemma part_subschema d m m' : part d m (VMap m') -> subschema d m (VMap m').
Proof.
  intros [H|[H|[H|H]]].
  - inversion H; subst.
    + apply sub_not; auto.
    + eapply sub_since7; eauto.
    + eapply (sub_element d m k); eauto. cbn [In] in *. tauto.
    + eapply sub_dependency; eauto. intros [l [=]].
  - inversion H; subst.
    + match goal with I : In k _ |- _ => destruct I as [<-|[<-|[]]] end; [apply sub_items; auto; intros [l [=]]|].
      eapply (sub_additional d m "additionalItems"); [cbn; auto|eassumption|intros [b [=]]].
    + eapply (sub_since6 d m "contains"); cbn; auto.
    + eapply (sub_element d m "items"); cbn; eauto.
  - inversion H; subst.
    + eapply (sub_additional d m "additionalProperties"); [cbn; auto|eassumption|intros [b [=]]].
    + eapply SpecShape.sub_member; eauto.
  - destruct H as [H6 H]. eapply (sub_since6 d m "propertyNames"); cbn; auto.
Qed.
Lemma within_meets ce loc d doc : settled_in loc d -> forall d' m, within (leads_in ce loc d) d doc d' (VMap m) -> meets (leads_in ce loc) d doc d' (VMap m).
Proof.
  intros S. assert (G : forall d' x, within (leads_in ce loc d) d doc d' x -> ((forall r e x, loc r e -> sp_draft e = Some x -> x = d) -> d' = d) /\ forall m, x = VMap m -> meets (leads_in ce loc) d doc d' x).
  { induction 1 as [|d' m x _ [IH1 IH2] Nr Hp|d' m k d2 x _ [IH1 IH2] Hr HT].
    - split; auto. constructor.
    - split; [exact IH1|]. intros m' ->. eapply meets_sub; [apply (IH2 _ eq_refl)|]. apply part_subschema. exact Hp.
    - split.
      + intros S2. destruct HT as (r & e & _ & He & _ & ->). destruct (sp_draft e) eqn:Ed; eauto.
      + intros m' ->. eapply meets_ref; [apply (IH2 _ eq_refl)|exact Hr|]. destruct HT as (r & e & Hk & He & -> & ->). exists r, e. repeat split; auto.
        destruct (sp_draft e) eqn:Ed; auto. destruct S as [S|S]; [destruct (S r e He Ed)|]. symmetry. apply IH1. exact S. }
  intros d' m H. apply (proj2 (G _ _ H) m eq_refl).
Qed.
Lemma shapes_shared url d m : shapes portable url same d m -> assoc "format" m <> Some (VStr "regex") -> shared m.
Proof.
  intros (_ & B & C) F. split; [|split; [|exact F]].
  - intros p Hp. unfold plain_shapes in B. destruct B as (_ & _ & _ & _ & _ & _ & _ & _ & _ & B & _). destruct (B _ Hp) as (p' & [= <-] & R). exact R.
  - intros ps p x Hp Hi. destruct C as (_ & _ & C & _). destruct (C _ Hp) as (ps' & [= <-] & R). eauto.
Qed.

(** Checked on examples. *)
Lemma meets_well_shaped lead url_b (T : draft -> string -> draft -> value -> Prop) d0 : (forall k q, lead k = Some q -> forall d' x, T d0 k d' x -> (d', x) = q) ->
  forall ce, (0 <= e_ratlim (c_go ce))%Z -> (forall s, url_b s = true -> u_parse ce s <> None) ->
  forall L v0, met_b lead url_b L (d0, v0) = true -> forall d v, meets T d0 v0 d v -> well_shaped ce d v.
Proof.
  intros HT ce Hlim Hurl L v0 E d v M. split; [apply (meets_right lead url_b T d0 HT ce Hlim Hurl L v0 E d v M)|].
  pose proof (meets_collected lead url_b T d0 HT L v0 E d v M) as H. unfold met_b in E. apply andb_prop in E. destruct E as [_ E].
  rewrite forallb_forall in E. specialize (E _ H). apply andb_prop in E. destruct E as [E _]. apply andb_prop in E. destruct E as [_ E]. unfold right_b in E. apply andb_prop in E. destruct E as [_ E].
  cbn [fst snd] in E. destruct v as [|b|t|f|t|l|o|o]; try discriminate E; [|eapply shapes_checked; eauto]. intros ->. discriminate E.
Qed.

(** ** The whole library *)
Section Stack.
  Variables (ud : ModelRegexp.unidata) (lim : Z).
  Variable fs : nat -> string -> option string.
  Variable http : string -> option string.
  Variable rest : string -> string.
  Notation go := (go_libs ud lim).
  Notation W := (go_world go fs http rest).
  Notation P := (plain_world go fs http rest).
  Hypothesis HS : serves_plain go fs http rest.

  (** Whatever compiles. *)
  Theorem stack_verdict fuel o sl l p doc sch sl' :
    fair o -> loader_fit l -> sl_ok sl -> plain_loader go fs http rest l -> plain_pool go fs http rest (sl_pool sl) -> sl_validate sl = false -> source P sl l p doc ->
    let d := root_draft P sl doc in
    all_found (view P sl l) p doc -> settled_in (SpecFetch.found (view P sl l) p doc) d ->
    Compile W fuel o sl l = LOk sch sl' ->
    let T := heads_to (view P sl l) p doc d in
    guarded T d doc -> (forall d' m, within T d doc d' (VMap m) -> (forall r, assoc "$ref" m <> Some (VStr r)) -> shared m) ->
    forall v, usual lim v ->
    (forall d' m x, needed T d doc v d' (VMap m) x -> assoc "$ref" m = None -> fits lim m x) ->
    forall o', fair o' ->
    exists r, returns go (s_heap sch) (s_root sch) o' v r /\ (Valid r = true <-> meaning pattern_says format_says same T d doc v).
  Proof.
    intros Ho Hl Hs Tl Tp Hv Hsrc d Ha Hset E T G Hsh v Hu Hf o' Ho'.
    destruct (plain_verdict go fs http rest HS fuel o sl l p doc sch sl' Ho Hl Hs Tl Tp Hv Hsrc Ha Hset E G v Hu Hf o' Ho') as (r & R & M).
    exists r. split; [exact R|]. etransitivity; [exact M|]. apply library_meaning; [apply Hu|exact Hsh].
  Qed.

  (** Validate(schema, document). *)
  Theorem stack_validate fuel o ls ld p doc lib n v :
    fair o -> loader_fit ls -> plain_loader go fs http rest ls -> source P NewSchemaLoader ls p doc ->
    let ce := view P NewSchemaLoader ls in let d := root_draft P NewSchemaLoader doc in let T := heads_to ce p doc d in
    covered ce p lib doc -> lib_fuel doc lib < fuel -> settled_in (SpecFetch.found ce p doc) d ->
    (forall d' x, meets (heads_to ce p doc) d doc d' x -> well_shaped ce d' x) ->
    (forall d' m, within T d doc d' (VMap m) -> assoc "format" m <> Some (VStr "regex")) ->
    shallow T n d doc ->
    fst (LoadJSON W ld) = Some v -> usual lim v ->
    (forall d' m x, needed T d doc v d' (VMap m) x -> assoc "$ref" m = None -> fits lim m x) ->
    vsize v * S n + n <= fuel ->
    exists r, Validate W fuel o ls ld = Ok (Some r) /\ (Valid r = true <-> meaning pattern_says format_says same T d doc v).
  Proof.
    intros Ho Hl Tl Hsrc ce d T Hc Hn Hset Hw Hfm Hsh Hv Hu Hf Hk.
    destruct (plain_bounded go fs http rest HS fuel (shift o 0) NewSchemaLoader ls p doc lib n (shift_fair _ _ Ho) Hl sl_ok_new Tl ltac:(constructor) eq_refl Hsrc Hc Hn Hset) as (sch & p' & E & _ & K); auto.
    - intros d' x M. apply (well_shaped_right _ ud lim); [reflexivity|]. apply Hw. exact M.
    - destruct (K v Hu Hf fuel (shift o 1) (shift_fair _ _ Ho) Hk) as (r & R & M). exists r. split.
      + unfold Validate, NewSchema. rewrite E. unfold Schema_Validate. rewrite Hv. change (w_go W) with go. rewrite R. reflexivity.
      + etransitivity; [exact M|]. apply library_meaning; [apply Hu|]. intros d' m Hm _.
        pose proof (within_meets _ _ _ _ Hset _ _ Hm) as Mt. apply Hw in Mt. destruct Mt as [_ Mt]. eapply shapes_shared; [exact Mt|]. exact (Hfm _ _ Hm).
  Qed.

  (** ** Texts: a schema without references or identifiers *)
  Lemma self_bare doc : self_contained doc -> bare doc.
  Proof. intros [H1 H2]. split; [|exact H2]. intros m k t I Hk. apply H1; auto. cbn [In] in *. tauto. Qed.
  Lemma self_plain doc : self_contained doc -> plain_doc go fs http rest doc = true.
  Proof.
    intros [H _]. unfold plain_doc. remember (S (weight doc)) as n eqn:En. assert (L : weight doc < n) by lia. clear En. revert doc L H.
    induction n as [|n IH]; intros doc L H; [lia|]. destruct doc as [| | | | |l|m|]; try reflexivity; cbn [tame_doc]; apply forallb_forall.
    - intros x Hx. apply IH; [apply weight_arr in Hx; lia|]. intros m k t I. apply H. econstructor; eauto.
    - intros [k x] Hx. cbn [fst snd]. apply andb_true_iff. split.
      + unfold tame_under. destruct x; try reflexivity. destruct (url_key k) eqn:K; [|reflexivity]. exfalso. apply (H m k s); [constructor| |exact Hx].
        unfold url_key in K. rewrite !orb_true_iff, !String.eqb_eq in K. cbn [In]. intuition.
      + apply IH; [apply weight_map in Hx; lia|]. intros m' k' t I. apply H. eapply inside_map; eauto.
  Qed.
  Lemma self_shapes ce doc m : self_contained doc -> inside doc (VMap m) -> shapes portable (fun _ => True) same Hybrid m -> shapes portable (fun s => u_parse ce s <> None) same Hybrid m.
  Proof.
    intros [H _] I ((A1 & A2 & A3 & A4 & A5) & B). split; [|exact B]. split; [|split; [exact A2|split; [exact A3|split; [exact A4|]]]].
    - intros x Hx. destruct (A1 x Hx) as (t & -> & _). exfalso. apply assoc_In in Hx. apply (H m (id_keyword Hybrid m) t I); [|exact Hx]. unfold id_keyword. destruct (assoc "id" m); cbn [In]; auto.
    - intros x Hx. destruct (A5 x Hx) as (t & -> & _). exfalso. apply assoc_In in Hx. apply (H m "$ref" t I); [|exact Hx]. cbn [In]; auto.
  Qed.
  Lemma meets_well_formed re url T d doc d' x : (forall d1 k d2 y, ~ T d1 k d2 y) -> well_formed re url same d doc -> meets T d doc d' x -> well_formed re url same d' x.
  Proof.
    intros N Wf H. induction H as [|d1 m x _ IH S|d1 m k d2 x _ _ _ K]; [exact Wf| |destruct (N _ _ _ _ K)].
    inversion IH as [|? _ K]; subst. apply K. exact S.
  Qed.

  Theorem stack_texts fuel o s t doc v :
    fair o -> json verbatim s doc -> json verbatim t v ->
    self_contained doc -> all_numbers (moderate lim) doc -> well_formed portable (fun _ => True) same Hybrid doc ->
    (forall m, inside doc (VMap m) -> assoc "format" m <> Some (VStr "regex")) ->
    all_numbers (moderate lim) v ->
    (forall d' m x, needed nowhere Hybrid doc v d' (VMap m) x -> assoc "$ref" m = None -> fits lim m x) ->
    vsize doc < fuel -> vsize v * (weight doc + 2) + weight doc + 1 <= fuel ->
    exists r, Validate W fuel o (LString s) (LString t) = Ok (Some r) /\ (Valid r = true <-> meaning pattern_says format_says same nowhere Hybrid doc v).
  Proof.
    intros Ho Js Jt Hd Nd Wf Hreg Nv Hf F1 F2.
    assert (Ds : decode_use_number s = Some doc).
    { rewrite <- (append_nil_r s). apply decode_complete; auto. destruct doc; exact I. }
    assert (Dt : decode_use_number t = Some v).
    { rewrite <- (append_nil_r t). apply decode_complete; auto. destruct v; exact I. }
    pose proof (self_bare doc Hd) as B. destruct (plain_laws go fs http rest) as [L1 L2].
    pose proof (bare_resolve P doc B) as Er. pose proof (bare_ids P doc B) as Ei. pose proof (bare_draft P doc B) as Ed.
    assert (Src : source P NewSchemaLoader (LString s) (known_documents P NewSchemaLoader doc) doc).
    { rewrite <- Er at 2. apply source_text; auto.
      - intros _. destruct Wf as [b _|m]; [left; eauto|right]. exists m. split; auto. intros x E. rewrite (proj2 Hd m eq_refl) in E. discriminate.
      - rewrite Ei. split; [constructor|intros r []]. }
    assert (NM : forall k, ~ mentions doc k) by (apply free_mentions; apply B).
    destruct (stack_validate fuel o (LString s) (LString t) (known_documents P NewSchemaLoader doc) doc [] (S (weight doc)) v Ho I) as (r & R & M); auto.
    - intros x E. cbn [LoadJSON fst] in E. rewrite Ds in E. injection E as <-. apply self_plain. exact Hd.
    - intros r R. destruct (reached_none P NewSchemaLoader (LString s) _ doc NM r R).
    - left. intros r e [R _]. destruct (reached_none P NewSchemaLoader (LString s) _ doc NM r R).
    - rewrite Ed. intros d' x Mt. pose proof (meets_well_formed _ _ _ _ _ _ _ (heads_none P NewSchemaLoader (LString s) _ doc NM) Wf Mt) as Wx. apply (meets_part P NewSchemaLoader (LString s) _ doc Hybrid NM) in Mt. destruct Mt as [-> Pt].
      pose proof (DraftsLoad.part_inside _ _ _ Pt) as Ix. split; [eapply inside_numbers; eauto|].
      destruct Wx as [b H6|m Sh _]; auto. eapply self_shapes; eauto.
    - rewrite Ed. intros d' m Wm. apply within_inside in Wm; [|apply B]. apply Hreg. exact Wm.
    - rewrite Ed. apply (shallow_weight P NewSchemaLoader (LString s) _ doc Hybrid NM).
    - split; [|exact Nv]. eapply decode_doc_ok. exact Dt.
    - rewrite Ed. intros d' m x N Er'. apply (Hf d'); [|exact Er']. eapply free_needed; [apply B|exact N].
    - lia.
    - exists r. split; [exact R|]. rewrite M, Ed. set (T := heads_to _ _ _ _).
      assert (WF : well_founded_at T Hybrid doc v) by (eapply guarded_well_founded; [apply free_guarded; apply B|constructor]).
      apply (meaning_unique pattern_says format_says same T _ _ _ _ _ WF); [apply meaning_exists; exact WF|apply free_meaning; apply B].
  Qed.
End Stack.
