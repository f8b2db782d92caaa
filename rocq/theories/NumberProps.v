(** Numbers, lengths and equality in compiled schemas. *)
From Verif Require Export AnySchema NumNotation.
From Coq Require Import Lia.
Open Scope nat_scope.

(** sch is what Compile, on a loader in state sl, made of a loader holding doc
    (in whatever iteration order, meta-schema validation on or off). *)
Definition schema_of (w : world) (sl : sloader) (doc : value) (sch : schema) : Prop :=
  exists fuel o l sl', fair o /\ (forall fs s, l <> LRef fs s) /\ loader_fit l /\ fst (LoadJSON w l) = Some doc /\
    all_numbers (moderate (e_ratlim (w_go w))) doc /\ sl_ok sl /\ Compile w fuel o sl l = LOk sch sl'.

(** The verdict on an instance, whatever the iteration order: the validation
    returns, and the result is valid exactly if P. *)
Definition verdict (w : world) (sch : schema) (v : value) (P : Prop) : Prop :=
  forall o, fair o -> exists r, returns (w_go w) (s_heap sch) (s_root sch) o v r /\ (Valid r = true <-> P).
Lemma verdict_ext w sch v P Q : (P <-> Q) -> verdict w sch v P -> verdict w sch v Q.
Proof. intros E H o F. destruct (H o F) as (r & R & X). exists r. split; auto. tauto. Qed.

Section Leaf.
  Variable w : world.
  Hypothesis HU : url_laws w.
  Notation lim := (e_ratlim (w_go w)).
  Variables (sl : sloader) (m : list (string * value)) (sch : schema).
  Hypothesis HS : schema_of w sl (VMap m) sch.
  Hypothesis HL : Forall leaf m.

  Lemma schema_leaf v : usual lim v -> fits lim m v ->
    verdict w sch v (keywords (pat (w_go w)) (fmt (w_go w)) same (fun _ _ _ => False) (root_draft w sl (VMap m)) m v).
  Proof.
    destruct HS as (fuel & o & l & sl' & F & Hl & Hfit & EL & Hm & Hs & E). intros U FT o' F'. eapply (leaf_verdict w HU sl fuel o l m sch sl'); eauto.
  Qed.
  Lemma leaf_absent ks : (forall k, In k (map fst m) -> In k ks) -> forall k, (if in_dec string_dec k ks then true else false) = false -> assoc k m = None.
  Proof.
    intros H k E. destruct (assoc k m) as [x|] eqn:Ek; auto. exfalso. destruct (in_dec string_dec k ks) as [|N]; [discriminate|]. apply N, H.
    apply assoc_present. congruence.
  Qed.
  Lemma schema_numbers k s : assoc k m = Some (VNum s) -> moderate lim s /\ json_number s = true.
  Proof.
    destruct HS as (fuel & o & l & sl' & F & Hl & Hfit & EL & Hm & Hs & E). intros Ek. apply assoc_In in Ek. split.
    - inversion Hm as [| | | | | |? H]; subst. rewrite Forall_forall in H. specialize (H _ Ek). inversion H; auto.
    - pose proof (LoadJSON_doc_ok w l _ Hfit EL) as D. apply doc_ok_map in D. destruct D as [_ D]. rewrite Forall_forall in D. destruct (D _ Ek) as [S _]. inversion S; auto.
  Qed.
  Lemma leaf_fits v : (compares m -> in_float_range v) -> assoc "type" m <> Some (VArr []) -> assoc "enum" m <> Some (VArr []) -> fits lim m v.
  Proof.
    intros HC H1 H2. split; auto. unfold regular. assert (N : forall k, (if in_dec string_dec k leaf_keys then true else false) = false -> assoc k m = None) by (intros; apply leaf_none; auto).
    rewrite (N "anyOf"), (N "oneOf"), (N "items"), (N "additionalItems") by (vm_compute; reflexivity).
    repeat match goal with |- _ /\ _ => apply conj end; auto; try discriminate; intros s Es; apply (schema_numbers _ _ Es).
  Qed.

  (** A literal instance. *)
  Lemma usual_number t q : denotes t q -> moderate lim t -> usual lim (VNum t).
  Proof.
    intros D Hm. assert (J : json_number t = true) by (apply number_iff; exists q; exact D). split; [split; [constructor; auto|reflexivity]|constructor; auto].
  Qed.

  Ltac absent N := let x := fresh "x" in let E := fresh "E" in intros x E; rewrite N in E by (vm_compute; reflexivity); discriminate E.
  Ltac gone N := first [solve [absent N] | solve [intros _; absent N]].

  Definition bound_keys : list string := ["$schema"; "title"; "description"; "minimum"; "maximum"; "exclusiveMinimum"; "exclusiveMaximum"].

  (** The bounds hold exactly. *)
  Definition within_bounds (d : draft) (q : Q) : Prop :=
    (forall b p, assoc "minimum" m = Some (VNum b) -> denotes b p -> (p <= q)%Q) /\
    (forall b p, assoc "maximum" m = Some (VNum b) -> denotes b p -> (q <= p)%Q) /\
    (forall b p, assoc "minimum" m = Some (VNum b) -> denotes b p -> d = Draft4 \/ d = Hybrid -> assoc "exclusiveMinimum" m = Some (VBool true) -> (p < q)%Q) /\
    (forall b p, assoc "maximum" m = Some (VNum b) -> denotes b p -> d = Draft4 \/ d = Hybrid -> assoc "exclusiveMaximum" m = Some (VBool true) -> (q < p)%Q) /\
    (forall b p, assoc "exclusiveMinimum" m = Some (VNum b) -> denotes b p -> d <> Draft4 -> (p < q)%Q) /\
    (forall b p, assoc "exclusiveMaximum" m = Some (VNum b) -> denotes b p -> d <> Draft4 -> (q < p)%Q).

  Theorem bounds_exact : (forall k, In k (map fst m) -> In k bound_keys) ->
    forall t q, denotes t q -> moderate lim t -> verdict w sch (VNum t) (within_bounds (root_draft w sl (VMap m)) q).
  Proof.
    intros HK t q Dt Mt. pose proof (leaf_absent _ HK) as N. pose proof (usual_number t q Dt Mt) as U.
    assert (FT : fits lim m (VNum t)).
    { apply leaf_fits; try (rewrite N by (vm_compute; reflexivity); discriminate). unfold compares. rewrite !N by (vm_compute; reflexivity). intros [X|[X|X]]; congruence. }
    eapply verdict_ext; [|exact (schema_leaf _ U FT)]. set (d := root_draft w sl (VMap m)).
    assert (IN : forall q', is_num (VNum t) q' -> (q' == q)%Q) by (intros q' (s & [= <-] & H); eapply denotes_unique; eauto).
    assert (IQ : is_num (VNum t) q) by (exists t; auto).
    unfold keywords, within_bounds. split.
    - intros (_ & _ & _ & _ & _ & _ & _ & _ & _ & _ & KM & Km & KX & Kx & _). repeat match goal with |- _ /\ _ => apply conj end.
      + intros b p E D. apply (Km _ E q p IQ). exists b; auto.
      + intros b p E D. apply (KM _ E q p IQ). exists b; auto.
      + intros b p E D Hd Ex. apply (Km _ E q p IQ); [exists b; auto|]. split; auto.
      + intros b p E D Hd Ex. apply (KM _ E q p IQ); [exists b; auto|]. split; auto.
      + intros b p E D Hd. apply (Kx Hd _ E q p IQ). exists b; auto.
      + intros b p E D Hd. apply (KX Hd _ E q p IQ). exists b; auto.
    - intros (B1 & B2 & B3 & B4 & B5 & B6). repeat match goal with |- _ /\ _ => apply conj end; try gone N.
      + intros x E q' b Hq (s & -> & Db). rewrite (IN _ Hq). split; [eapply B2; eauto|]. intros [Hd Ex]. eapply B4; eauto.
      + intros x E q' b Hq (s & -> & Db). rewrite (IN _ Hq). split; [eapply B1; eauto|]. intros [Hd Ex]. eapply B3; eauto.
      + intros Hd x E q' b Hq (s & -> & Db). rewrite (IN _ Hq). eapply B6; eauto.
      + intros Hd x E q' b Hq (s & -> & Db). rewrite (IN _ Hq). eapply B5; eauto.
  Qed.

  Theorem multipleOf_exact : (forall k, In k (map fst m) -> In k ["$schema"; "title"; "description"; "multipleOf"]) ->
    forall t q, denotes t q -> moderate lim t ->
    verdict w sch (VNum t) (forall b p, assoc "multipleOf" m = Some (VNum b) -> denotes b p -> exists k : Z, (q == inject_Z k * p)%Q).
  Proof.
    intros HK t q Dt Mt. pose proof (leaf_absent _ HK) as N. pose proof (usual_number t q Dt Mt) as U.
    assert (FT : fits lim m (VNum t)).
    { apply leaf_fits; try (rewrite N by (vm_compute; reflexivity); discriminate). unfold compares. rewrite !N by (vm_compute; reflexivity). intros [X|[X|X]]; congruence. }
    eapply verdict_ext; [|exact (schema_leaf _ U FT)]. 
    assert (IN : forall q', is_num (VNum t) q' -> (q' == q)%Q) by (intros q' (s & [= <-] & H); eapply denotes_unique; eauto).
    assert (IQ : is_num (VNum t) q) by (exists t; auto).
    unfold keywords. split.
    - intros (_ & _ & _ & _ & _ & _ & _ & _ & _ & K & _) b p E D. apply (K _ E q p IQ). exists b; auto.
    - intros B. repeat match goal with |- _ /\ _ => apply conj end; try gone N.
      intros x E q' b Hq (s & -> & Db). destruct (B s b E Db) as [k Hk]. exists k. rewrite (IN _ Hq). auto.
  Qed.

  Theorem length_exact : (forall k, In k (map fst m) -> In k ["$schema"; "title"; "description"; "minLength"; "maxLength"]) ->
    forall s cps, text cps s ->
    verdict w sch (VStr s)
      ((forall b n, assoc "minLength" m = Some (VNum b) -> denotes b (inject_Z n) -> (n <= Z.of_nat (length cps))%Z) /\
       (forall b n, assoc "maxLength" m = Some (VNum b) -> denotes b (inject_Z n) -> (Z.of_nat (length cps) <= n)%Z)).
  Proof.
    intros HK s cps Ht. pose proof (leaf_absent _ HK) as N.
    assert (U : usual lim (VStr s)) by (split; [split; [constructor; exists cps; auto|reflexivity]|constructor]).
    assert (FT : fits lim m (VStr s)).
    { apply leaf_fits; try (rewrite N by (vm_compute; reflexivity); discriminate). intros _. constructor. }
    eapply verdict_ext; [|exact (schema_leaf _ U FT)].
    assert (UN : forall cps', text cps' s -> length cps' = length cps).
    { intros cps' H. apply Nat2Z.inj. rewrite <- (rune_count_text _ _ H), <- (rune_count_text _ _ Ht). auto. }
    unfold keywords. split.
    - intros (_ & _ & _ & _ & _ & _ & _ & _ & _ & _ & _ & _ & _ & _ & KM & Km & _). split.
      + intros b n E D. apply (Km _ E n s cps); auto. exists b; auto.
      + intros b n E D. apply (KM _ E n s cps); auto. exists b; auto.
    - intros [B1 B2]. repeat match goal with |- _ /\ _ => apply conj end; try gone N.
      + intros x E n s' cps' (b & -> & D) [= <-] H. rewrite (UN _ H). eapply B2; eauto.
      + intros x E n s' cps' (b & -> & D) [= <-] H. rewrite (UN _ H). eapply B1; eauto.
  Qed.

  Theorem type_exact : (forall k, In k (map fst m) -> In k ["$schema"; "title"; "description"; "type"]) -> assoc "type" m <> Some (VArr []) ->
    forall v, usual lim v ->
    verdict w sch v ((forall t, assoc "type" m = Some (VStr t) -> has_type t v) /\
                     (forall ts, assoc "type" m = Some (VArr ts) -> exists t, In (VStr t) ts /\ has_type t v)).
  Proof.
    intros HK HT v U. pose proof (leaf_absent _ HK) as N.
    assert (FT : fits lim m v).
    { apply leaf_fits; auto; try (rewrite N by (vm_compute; reflexivity); discriminate). unfold compares. rewrite !N by (vm_compute; reflexivity). intros [X|[X|X]]; congruence. }
    eapply verdict_ext; [|exact (schema_leaf _ U FT)]. unfold keywords. split.
    - intros (K & _). split; [intros t E|intros ts E]; apply (K _ E); auto.
    - intros [B1 B2]. repeat match goal with |- _ /\ _ => apply conj end; try gone N. intros x E. split; [intros t ->|intros ts ->]; auto.
  Qed.

  Theorem const_exact : (forall k, In k (map fst m) -> In k ["$schema"; "title"; "description"; "const"]) ->
    forall v, ordinary lim v ->
    verdict w sch v (root_draft w sl (VMap m) <> Draft4 -> forall x, assoc "const" m = Some x -> equal same_float v x).
  Proof.
    intros HK v O. pose proof (leaf_absent _ HK) as N. pose proof (ordinary_usual _ _ O) as U.
    assert (FT : fits lim m v). { apply leaf_fits; try (rewrite N by (vm_compute; reflexivity); discriminate). intros _. apply O. }
    eapply verdict_ext; [|exact (schema_leaf _ U FT)]. unfold keywords. split.
    - intros (_ & K & _) Hd x E. apply (K Hd x E).
    - intros B. repeat match goal with |- _ /\ _ => apply conj end; try gone N. exact B.
  Qed.

  Theorem enum_exact : (forall k, In k (map fst m) -> In k ["$schema"; "title"; "description"; "enum"]) -> assoc "enum" m <> Some (VArr []) ->
    forall v, ordinary lim v ->
    verdict w sch v (forall xs, assoc "enum" m = Some (VArr xs) -> exists x, In x xs /\ equal same_float v x).
  Proof.
    intros HK HE v O. pose proof (leaf_absent _ HK) as N. pose proof (ordinary_usual _ _ O) as U.
    assert (FT : fits lim m v). { apply leaf_fits; auto; try (rewrite N by (vm_compute; reflexivity); discriminate). intros _. apply O. }
    eapply verdict_ext; [|exact (schema_leaf _ U FT)]. unfold keywords. split.
    - intros (_ & _ & K & _) xs E. apply (K _ E xs eq_refl).
    - intros B. repeat match goal with |- _ /\ _ => apply conj end; try gone N. intros x E l ->. apply B. auto.
  Qed.

  Theorem unique_exact : (forall k, In k (map fst m) -> In k ["$schema"; "title"; "description"; "uniqueItems"]) ->
    forall l, ordinary lim (VArr l) ->
    verdict w sch (VArr l) (assoc "uniqueItems" m = Some (VBool true) ->
      forall i j a b, i < j -> nth_error l i = Some a -> nth_error l j = Some b -> ~ equal same_float a b).
  Proof.
    intros HK l O. pose proof (leaf_absent _ HK) as N. pose proof (ordinary_usual _ _ O) as U.
    assert (FT : fits lim m (VArr l)). { apply leaf_fits; try (rewrite N by (vm_compute; reflexivity); discriminate). intros _. apply O. }
    eapply verdict_ext; [|exact (schema_leaf _ U FT)]. unfold keywords. split.
    - intros (_ & _ & _ & _ & _ & _ & _ & _ & _ & _ & _ & _ & _ & _ & _ & _ & _ & _ & _ & _ & _ & K & _) E i j a b Hij Ha Hb. eapply (K _ E l); eauto.
    - intros B. repeat match goal with |- _ /\ _ => apply conj end; try gone N. intros x E l' -> [= <-]. apply B. auto.
  Qed.
End Leaf.

(** ** Notation of numbers in the instance *)
Section Notation.
  Variable w : world.
  Notation lim := (e_ratlim (w_go w)).
  Variables (sl : sloader) (sch : schema) (d : draft) (doc : value).
  Hypothesis HC : compiled w sl sch d doc.
  Notation T := (target (cenv_of w sl) (s_state sch)).
  Hypothesis HG : guarded T d doc.

  Notation plain_ref m := (forall r, assoc "$ref" m <> Some (VStr r)).
  Lemma compiled_refs d' m : within T d doc d' (VMap m) -> plain_ref m -> assoc "$ref" m = None.
  Proof.
    destruct HC as (EH & ER & W & K & C). rewrite EH in C. intros Hw Nr.
    destruct (within_kid _ _ _ W C d doc 0 K _ _ Hw) as [[i Ki]|N]; [|destruct (N m eq_refl)].
    destruct (kid_cell _ _ _ W C _ _ _ Ki) as (n & _ & _ & _ & Hn). destruct (assoc "$ref" m) as [y|] eqn:E; auto.
    destruct y; try tauto. destruct (Nr _ eq_refl).
  Qed.
  Lemma notation_verdict (eqn : value -> value -> Prop) : (forall x y, eqn x y -> eqn y x) -> (forall x y, eqn x y -> same_value x y) ->
    (forall f v v', equal eqn v v' -> e_is_format (w_go w) f v = e_is_format (w_go w) f v') ->
    forall v v', usual lim v -> usual lim v' -> equal eqn v v' ->
    (forall d' m x, needed T d doc v d' (VMap m) x \/ needed T d doc v' d' (VMap m) x -> assoc "$ref" m = None -> fits lim m x) ->
    (forall d' m u u', needed T d doc v d' (VMap m) u -> needed T d doc v' d' (VMap m) u' -> equal eqn u u' -> assoc "$ref" m = None -> compares m ->
       comparable same u u' /\ comparable same u' u) ->
    forall o o', fair o -> fair o' -> exists r r',
      returns (w_go w) (s_heap sch) (s_root sch) o v r /\ returns (w_go w) (s_heap sch) (s_root sch) o' v' r' /\ Valid r = Valid r'.
  Proof.
    intros ES EV HF v v' U U' Rv FT CMP o o' F F'.
    destruct (compiled_verdict w sl sch d doc HC v U) as [_ A]; [intros; eapply FT; eauto|]. destruct (A HG o F) as (r & R & VR).
    destruct (compiled_verdict w sl sch d doc HC v' U') as [_ A']; [intros; eapply FT; eauto|]. destruct (A' HG o' F') as (r' & R' & VR').
    exists r, r'. split; auto. split; auto.
    assert (M : meaning (pat (w_go w)) (fmt (w_go w)) same T d doc v <-> meaning (pat (w_go w)) (fmt (w_go w)) same T d doc v').
    { apply (meaning_notation eqn ES EV); auto; try (eapply guarded_well_founded; [exact HG|constructor]); try apply U; try apply U'.
      2: { intros d' m u u' N N' Ru Nr. apply (CMP d' m u u'); auto. eapply compiled_refs; eauto. eapply needed_within; eauto. }
      intros f x y Rxy Dx Dy [H|H]; [left; auto|right; rewrite <- (HF f x y Rxy); auto]. }
    destruct (Valid r), (Valid r'); auto; destruct VR, VR'; intuition congruence.
  Qed.

  (** Numbers replaced by others of the same value and sign: the same verdict. *)
  Theorem respelled_verdict :
    (forall f v v', equal respelled v v' -> e_is_format (w_go w) f v = e_is_format (w_go w) f v') ->
    forall v v', usual lim v -> usual lim v' -> equal respelled v v' ->
    (forall d' m x, needed T d doc v d' (VMap m) x \/ needed T d doc v' d' (VMap m) x -> assoc "$ref" m = None -> fits lim m x) ->
    forall o o', fair o -> fair o' -> exists r r',
      returns (w_go w) (s_heap sch) (s_root sch) o v r /\ returns (w_go w) (s_heap sch) (s_root sch) o' v' r' /\ Valid r = Valid r'.
  Proof.
    intros HF v v' U U' Rv FT. apply (notation_verdict respelled); auto using respelled_sym, respelled_value.
    intros d' m u u' N N' Ru Nr HCm. split; apply respelled_comparable; auto.
    - eapply (FT d' m u); auto.
    - apply R_sym; auto using respelled_sym, respelled_value.
    - eapply (FT d' m u'); auto.
  Qed.

  (** Where no const, enum or uniqueItems is involved the sign of zero does not
      matter either. *)
  Theorem revalued_verdict :
    (forall f v v', equal same_value v v' -> e_is_format (w_go w) f v = e_is_format (w_go w) f v') ->
    forall v v', usual lim v -> usual lim v' -> equal same_value v v' ->
    (forall d' m x, needed T d doc v d' (VMap m) x \/ needed T d doc v' d' (VMap m) x -> assoc "$ref" m = None -> fits lim m x /\ ~ compares m) ->
    forall o o', fair o -> fair o' -> exists r r',
      returns (w_go w) (s_heap sch) (s_root sch) o v r /\ returns (w_go w) (s_heap sch) (s_root sch) o' v' r' /\ Valid r = Valid r'.
  Proof.
    intros HF v v' U U' Rv FT. apply (notation_verdict same_value); auto using same_value_sym.
    - intros d' m x N Nr. apply (FT d' m x); auto.
    - intros d' m u u' N N' Ru Nr HCm. exfalso. destruct (FT d' m u); auto.
  Qed.
End Notation.

(** The same for a self-contained document, in terms of what its references
    lead to. *)
Section Total.
  Variable w : world.
  Hypothesis HU : url_laws w.
  Notation lim := (e_ratlim (w_go w)).
  Variables (sl : sloader) (fuel : nat) (o0 : oracle) (l : loader) (doc : value) (sch : schema) (sl' : sloader).
  Hypothesis HF0 : fair o0.
  Hypothesis Hl : forall fs s, l <> LRef fs s.
  Hypothesis Hfit : loader_fit l.
  Hypothesis HLd : fst (LoadJSON w l) = Some doc.
  Hypothesis Hmod : all_numbers (moderate lim) doc.
  Hypothesis HVal : sl_validate sl = false.
  Hypothesis HSC : self_contained w sl doc.
  Hypothesis HComp : Compile w fuel o0 sl l = LOk sch sl'.
  Notation d := (root_draft w sl doc).
  Notation s := (resolve (w_parse w) (w_inherits w) "" doc).
  Notation T := (leads_to (cenv_of w sl) (known_documents w sl doc) d).
  Hypothesis HG : guarded T d s.
  Notation plain_ref m := (forall r, assoc "$ref" m <> Some (VStr r)).

  Lemma compile_refs d' m : within T d s d' (VMap m) -> plain_ref m -> assoc "$ref" m = None.
  Proof.
    intros Hw Nr. destruct HSC as (Hf & Hpool & Hset & Hcl). pose proof (LoadJSON_doc_ok w l doc Hfit HLd) as Hd.
    destruct (compile_parts w HU sl fuel o0 l doc sch sl' HF0 Hl HLd Hd Hmod HVal Hf Hpool Hset Hcl HComp) as (ce1 & p1 & o1 & s' & F1 & Hset1 & Hdocs & KP & Hdr & Hcl1 & T1 & Eg & E3 & Eh & _).
    destruct (parse_ok ce1 _ (known_fetch ce1 p1 d Hdocs) fuel o1 "" d s p1 _ s' F1 KP (conj Hdr Hcl1) (or_intror eq_refl) E3) as (Er0 & W & L & K & C).
    assert (Hw1 : within (leads_to ce1 p1 d) d s d' (VMap m)) by (eapply within_ext; [|exact Hw]; intros; symmetry; apply T1).
    apply (proj2 (known_within ce1 p1 d Hset1 s' 0 s W C K d' (VMap m))) in Hw1.
    destruct (within_kid _ _ _ W C d s 0 K _ _ Hw1) as [[i Ki]|N]; [|destruct (N m eq_refl)].
    destruct (kid_cell _ _ _ W C _ _ _ Ki) as (n & _ & _ & _ & Hn). destruct (assoc "$ref" m) as [y|] eqn:E; auto.
    destruct y; try tauto. destruct (Nr _ eq_refl).
  Qed.
  Lemma notation_total (eqn : value -> value -> Prop) : (forall x y, eqn x y -> eqn y x) -> (forall x y, eqn x y -> same_value x y) ->
    (forall f v v', equal eqn v v' -> e_is_format (w_go w) f v = e_is_format (w_go w) f v') ->
    forall v v', usual lim v -> usual lim v' -> equal eqn v v' ->
    (forall d' m x, needed T d s v d' (VMap m) x \/ needed T d s v' d' (VMap m) x -> assoc "$ref" m = None -> fits lim m x) ->
    (forall d' m u u', needed T d s v d' (VMap m) u -> needed T d s v' d' (VMap m) u' -> equal eqn u u' -> assoc "$ref" m = None -> compares m ->
       comparable same u u' /\ comparable same u' u) ->
    forall o o', fair o -> fair o' -> exists r r',
      returns (w_go w) (s_heap sch) (s_root sch) o v r /\ returns (w_go w) (s_heap sch) (s_root sch) o' v' r' /\ Valid r = Valid r'.
  Proof.
    intros ES EV HF v v' U U' Rv FT CMP o o' F F'.
    destruct (compile_total w HU sl fuel o0 l doc sch sl' HF0 Hl Hfit HLd Hmod HVal HSC HComp HG v U) with (o' := o) as (r & R & VR); auto; [intros; eapply FT; eauto|].
    destruct (compile_total w HU sl fuel o0 l doc sch sl' HF0 Hl Hfit HLd Hmod HVal HSC HComp HG v' U') with (o' := o') as (r' & R' & VR'); auto; [intros; eapply FT; eauto|].
    exists r, r'. split; auto. split; auto.
    assert (M : meaning (pat (w_go w)) (fmt (w_go w)) same T d s v <-> meaning (pat (w_go w)) (fmt (w_go w)) same T d s v').
    { apply (meaning_notation eqn ES EV); auto; try (eapply guarded_well_founded; [exact HG|constructor]); try apply U; try apply U'.
      2: { intros d' m u u' N N' Ru Nr. apply (CMP d' m u u'); auto. eapply compile_refs; eauto. eapply needed_within; eauto. }
      intros f x y Rxy Dx Dy [H|H]; [left; auto|right; rewrite <- (HF f x y Rxy); auto]. }
    destruct (Valid r), (Valid r'); auto; destruct VR, VR'; intuition congruence.
  Qed.

  Theorem respelled_total :
    (forall f v v', equal respelled v v' -> e_is_format (w_go w) f v = e_is_format (w_go w) f v') ->
    forall v v', usual lim v -> usual lim v' -> equal respelled v v' ->
    (forall d' m x, needed T d s v d' (VMap m) x \/ needed T d s v' d' (VMap m) x -> assoc "$ref" m = None -> fits lim m x) ->
    forall o o', fair o -> fair o' -> exists r r',
      returns (w_go w) (s_heap sch) (s_root sch) o v r /\ returns (w_go w) (s_heap sch) (s_root sch) o' v' r' /\ Valid r = Valid r'.
  Proof.
    intros HF v v' U U' Rv FT. apply (notation_total respelled); auto using respelled_sym, respelled_value.
    intros d' m u u' N N' Ru Nr HCm. split; apply respelled_comparable; auto.
    - eapply (FT d' m u); auto.
    - apply R_sym; auto using respelled_sym, respelled_value.
    - eapply (FT d' m u'); auto.
  Qed.

  Theorem revalued_total :
    (forall f v v', equal same_value v v' -> e_is_format (w_go w) f v = e_is_format (w_go w) f v') ->
    forall v v', usual lim v -> usual lim v' -> equal same_value v v' ->
    (forall d' m x, needed T d s v d' (VMap m) x \/ needed T d s v' d' (VMap m) x -> assoc "$ref" m = None -> fits lim m x /\ ~ compares m) ->
    forall o o', fair o -> fair o' -> exists r r',
      returns (w_go w) (s_heap sch) (s_root sch) o v r /\ returns (w_go w) (s_heap sch) (s_root sch) o' v' r' /\ Valid r = Valid r'.
  Proof.
    intros HF v v' U U' Rv FT. apply (notation_total same_value); auto using same_value_sym.
    - intros d' m x N Nr. apply (FT d' m x); auto.
    - intros d' m u u' N N' Ru Nr HCm. exfalso. destruct (FT d' m u); auto.
  Qed.
End Total.

Lemma integer_exact_type w : url_laws w -> forall sl m sch, schema_of w sl (VMap m) sch -> Forall leaf m ->
  (forall k, In k (map fst m) -> In k ["$schema"; "title"; "description"; "type"]) -> assoc "type" m = Some (VStr "integer") ->
  forall t q, denotes t q -> moderate (e_ratlim (w_go w)) t -> verdict w sch (VNum t) (exists n : Z, (q == inject_Z n)%Q).
Proof.
  intros HU sl m sch HS HL HK ET t q D M. eapply verdict_ext; [|apply (type_exact w HU sl m sch HS HL HK); [congruence|eapply usual_number; eauto]].
  rewrite ET. split.
  - intros [H _]. specialize (H _ eq_refl). destruct H as [[X _]|[[X _]|[[X _]|[[X (n & s & [= <-] & Hs)]|[[X _]|[[X _]|[X _]]]]]]]; try discriminate X.
    exists n. eapply denotes_unique; eauto.
  - intros [n E]. split; [|discriminate]. intros t' [= <-]. do 3 right. left. split; auto. exists n, t. split; auto. eapply denotes_ext; eauto.
Qed.
Lemma number_exact_type w : url_laws w -> forall sl m sch, schema_of w sl (VMap m) sch -> Forall leaf m ->
  (forall k, In k (map fst m) -> In k ["$schema"; "title"; "description"; "type"]) -> assoc "type" m = Some (VStr "number") ->
  forall t q, denotes t q -> moderate (e_ratlim (w_go w)) t -> verdict w sch (VNum t) True.
Proof.
  intros HU sl m sch HS HL HK ET t q D M. eapply verdict_ext; [|apply (type_exact w HU sl m sch HS HL HK); [congruence|eapply usual_number; eauto]].
  rewrite ET. split; auto. intros _. split; [|discriminate]. intros t' [= <-]. do 2 right. left. split; auto. exists q, t. auto.
Qed.
