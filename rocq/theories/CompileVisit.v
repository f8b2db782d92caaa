(** A compilation that succeeds has read every schema it met: the parts of each
    document read, and the documents behind every reference. *)
From Verif Require Export CompileKnown.
From Coq Require Import Lia.
Open Scope nat_scope.

(** What reading a schema comes to: of an object with a reference only the
    definitions, and the reference is one of K; of any other all its parts. *)
Section Seen.
  Variable ce : cenv.
  Inductive seen (K : string -> Prop) (d : draft) : value -> Prop :=
  | seen_bool b : seen K d (VBool b)
  | seen_map m :
      (forall k r, assoc "$ref" m = Some (VStr k) -> u_parse ce k = Some r -> K r) ->
      (forall ds n x, assoc "definitions" m = Some (VMap ds) -> In (n, x) ds -> seen K d x) ->
      ((forall k, assoc "$ref" m <> Some (VStr k)) -> forall x, subschema d m x -> seen K d x) ->
      seen K d (VMap m).
  Lemma seen_mono (K K' : string -> Prop) d v : (forall r, K r -> K' r) -> seen K d v -> seen K' d v.
  Proof. intros H. induction 1 as [b|m H1 _ IH2 _ IH3]; [constructor|]. constructor; eauto. Qed.
End Seen.

Section Visit.
  Variable ce : cenv.
  Notation lim := (e_ratlim (c_go ce)).
  Notation re := (fun p => e_re_ok (c_go ce) p = true).
  Notation url := (fun s => u_parse ce s <> None).
  Notation mod_ := (all_numbers (moderate lim)).
  Notation seen := (seen ce).
  Hypothesis Hinh : forall b s r, u_parse ce s = Some r -> u_inherits ce b r <> None.
  Variable W : draft -> value -> Prop.
  Variable PI : pool -> Prop.
  Variable G : string -> spd -> Prop.       (* what a reference leads to *)
  Hypothesis W_doc : forall d v, W d v -> doc_ok v.
  Hypothesis W_sub : forall d m x, W d (VMap m) -> subschema d m x -> W d x.
  Definition target (d : draft) (e : spd) : draft := match sp_draft e with Some x => x | None => d end.
  Hypothesis W_ref : forall d m k r e, W d (VMap m) -> assoc "$ref" m = Some (VStr k) -> u_parse ce k = Some r -> G r e -> W (target d e) (sp_doc e).
  Hypothesis W_get : forall d m k r, W d (VMap m) -> assoc "$ref" m = Some (VStr k) -> u_parse ce k = Some r ->
    forall o s e s', fair o -> PI (st_pool s) -> GetDocument ce o r s = COk e s' -> PI (st_pool s') /\ st_refs s' = st_refs s /\ G r e.
  Hypothesis W_keep : forall d m k r, W d (VMap m) -> assoc "$ref" m = Some (VStr k) -> u_parse ce k = Some r ->
    forall o s e s', fair o -> PI (st_pool s) -> GetDocument ce o r s = CErr e s' -> PI (st_pool s').

  (** Each call reads its schema. *)
  Lemma parse_reads k o a id v s s' : fair o -> W (pa_draft a) v -> PI (st_pool s) -> parseSchema ce k o a id v s = COk tt s' ->
    PI (st_pool s') /\ (mod_ v -> read_ok re url (pa_draft a) v).
  Proof.
    intros F Wv Hp E.
    assert (T : tri [] PI True True True (length (@nil string)) (parseSchema ce k o a id v) (fun _ => mod_ v -> read_ok re url (pa_draft a) v)).
    { apply (parseSchema_total ce Hinh W [] 0 PI True True True); auto.
      - intros d x H. split; [eapply W_doc; eauto|auto].
      - intros d m k0 r H E1 E2. split; [auto|]. intros n o' F' s0 P0 L0.
        destruct (GetDocument ce o' r s0) as [e s1|e s1| |] eqn:Eg; auto.
        + destruct (W_get _ _ _ _ H E1 E2 _ _ _ _ F' P0 Eg) as (A & B & C). split; auto. split; [unfold left in *; rewrite B; auto|].
          apply (W_ref _ _ _ _ _ H E1 E2 C).
        + split; auto. eapply W_keep; eauto. }
    specialize (T s Hp (Nat.le_refl _)). rewrite E in T. tauto.
  Qed.

  Definition known (s : cstate) (r : string) : Prop := assoc r (st_refs s) <> None.
  Definition done (K : string -> Prop) (r : string) : Prop :=
    exists d m k e, W d (VMap m) /\ assoc "$ref" m = Some (VStr k) /\ u_parse ce k = Some r /\ G r e /\
      seen K (target d e) (sp_doc e) /\ (mod_ (sp_doc e) -> read_ok re url (target d e) (sp_doc e)).
  Lemma done_mono (K K' : string -> Prop) r : (forall r, K r -> K' r) -> done K r -> done K' r.
  Proof. intros H (d & m & k & e & H1 & H2 & H3 & H4 & H5 & H6). exists d, m, k, e. repeat (split; auto). eapply seen_mono; eauto. Qed.

  Definition mono (Q : (string -> Prop) -> Prop) : Prop := forall K K' : string -> Prop, (forall r, K r -> K' r) -> Q K -> Q K'.
  Definition vis {A} (c : comp A) (Q : (string -> Prop) -> Prop) : Prop :=
    forall s a s', PI (st_pool s) -> c s = COk a s' ->
      PI (st_pool s') /\ (forall r, known s r -> known s' r) /\ (forall r, known s' r -> known s r \/ done (known s') r) /\ Q (known s').
  Definition none (K : string -> Prop) : Prop := True.

  Lemma vis_bind {A B} (c : comp A) (f : A -> comp B) Q Q' : mono Q -> vis c Q -> (forall a, vis (f a) Q') -> vis (cbind c f) (fun K => Q K /\ Q' K).
  Proof.
    intros M H1 H2 s b s' Hp E. unfold cbind in E. destruct (c s) as [a s1|e s1| |] eqn:Ec; try discriminate.
    destruct (H1 _ _ _ Hp Ec) as (P1 & L1 & D1 & Q1). destruct (H2 a _ _ _ P1 E) as (P2 & L2 & D2 & Q2).
    split; auto. split; auto. split; [|split; auto; eapply M; eauto].
    intros r Hr. destruct (D2 r Hr) as [Hr1|]; auto. destruct (D1 r Hr1) as [|X]; auto. right. eapply done_mono; eauto.
  Qed.
  Lemma vis_weak {A} (c : comp A) (Q Q' : (string -> Prop) -> Prop) : vis c Q -> (forall K, Q K -> Q' K) -> vis c Q'.
  Proof. intros H1 H2 s a s' Hp E. destruct (H1 _ _ _ Hp E) as (P1 & L1 & D1 & Q1). auto. Qed.
  Lemma vis_then {A B} (c : comp A) (f : A -> comp B) Q : vis c none -> (forall a, vis (f a) Q) -> vis (cbind c f) Q.
  Proof. intros H1 H2. eapply vis_weak; [eapply vis_bind; [|exact H1|exact H2]|]; [intros K K' _ _; exact I|]. intros K X. apply X. Qed.
  Lemma vis_after {A B} (c : comp A) (f : A -> comp B) Q : mono Q -> vis c Q -> (forall a, vis (f a) none) -> vis (cbind c f) Q.
  Proof. intros M H1 H2. eapply vis_weak; [eapply vis_bind; [exact M|exact H1|exact H2]|]. intros K X. apply X. Qed.
  Lemma vis_still {A} (c : comp A) : still c -> vis c none.
  Proof. intros H s a s' Hp E. specialize (H s). rewrite E in H. subst s'. repeat (split; auto). Qed.
  Lemma vis_ret {A} (a : A) (Q : (string -> Prop) -> Prop) : (forall K, Q K) -> vis (cret a) Q.
  Proof. intros H. eapply vis_weak; [apply vis_still, still_ret|auto]. Qed.
  Lemma vis_fail {A} e Q : vis (@cfail A e) Q.
  Proof. intros s a s' _ E. discriminate. Qed.
  Lemma vis_panic {A} Q : vis (@cpanic A) Q.
  Proof. intros s a s' _ E. discriminate. Qed.
  Lemma vis_ck {A} v ks (f : bool -> comp A) Q : doc_ok v ->
    (forall k, kind_of lim v = Ok k -> vis (f (existsb (kind_eqb k) ks)) Q) -> vis (cbind (ck ce v ks) f) Q.
  Proof.
    intros D H s a s' Hp E. unfold cbind in E. destruct (ck_run ce v ks s D) as [(k & Ek & Er)|[Er _]]; rewrite Er in E; [|discriminate].
    apply (H k Ek s a s' Hp E).
  Qed.
  Lemma vis_heap {A} (f : cstate -> A) g : (forall s, st_pool (g s) = st_pool s /\ st_refs (g s) = st_refs s) -> vis (fun s => COk (f s) (g s)) none.
  Proof.
    intros H s a s' Hp E. injection E as _ <-. destruct (H s) as [E1 E2]. unfold known. rewrite E1, E2. repeat (split; auto).
  Qed.
  Lemma vis_alloc prop d doc : vis (alloc prop d doc) none.
  Proof. apply (vis_heap (fun s => length (st_heap s)) (fun s => CState (st_heap s ++ [empty_node prop]) (st_src s ++ [(d, doc)]) (st_pool s) (st_refs s))); auto. Qed.
  Lemma vis_store id x : vis (store id x) none.
  Proof. apply (vis_heap (fun s => tt) (fun s => CState (set_nth id x (st_heap s)) (st_src s) (st_pool s) (st_refs s))); auto. Qed.
  Lemma vis_cmap {A B} (f : nat -> A -> comp B) (Q : A -> (string -> Prop) -> Prop) l : (forall x, mono (Q x)) ->
    (forall i x, In x l -> vis (f i x) (Q x)) -> forall i, vis (cmap f i l) (fun K => forall x, In x l -> Q x K).
  Proof.
    intros M. induction l as [|x l IH]; intros H i; cbn [cmap]; [apply vis_ret; intros K x []|].
    eapply vis_weak; [eapply vis_bind; [apply (M x)|apply H; left; auto|]|].
    - intros y. eapply vis_after; [|apply IH; intros; apply H; right; auto|intros ys; apply vis_ret; intros K; exact I].
      intros K K' HK X z Hz. eapply M; eauto.
    - intros K [X Y] z [<-|Hz]; auto.
  Qed.
  Lemma mono_seen d x : mono (fun K => seen K d x).
  Proof. intros K K' H. apply seen_mono. exact H. Qed.

  Section Node.
    Variable rec : oracle -> pargs -> nat -> value -> comp unit.
    Hypothesis HR : forall o a id v, fair o -> W (pa_draft a) v -> vis (rec o a id v) (fun K => seen K (pa_draft a) v).
    Variable d : draft.
    Variable m : list (string * value).
    Hypothesis HW : W d (VMap m).
    Lemma vdoc : doc_ok (VMap m).
    Proof. eapply W_doc; eauto. Qed.
    Lemma vmember k x : assoc k m = Some x -> doc_ok x.
    Proof. apply member_doc. apply vdoc. Qed.
    Lemma vis_child o prop myid v : fair o -> W d v -> vis (child rec o prop d myid v) (fun K => seen K d v).
    Proof.
      intros F Hv. unfold child. apply vis_then; [apply vis_alloc|]. intros id. apply vis_after; [apply mono_seen|apply (HR o (PArgs prop d false myid myid) id v F Hv)|].
      intros u. apply vis_ret. intros K. exact I.
    Qed.
    Ltac mono := let K := fresh in let K' := fresh in let H := fresh in let X := fresh in intros K K' H X; intros; eapply seen_mono; [exact H|]; eapply X; eauto.

    Lemma v_definitions o myid : fair o -> vis (p_definitions ce rec o d myid m) (fun K => forall ds n x, assoc "definitions" m = Some (VMap ds) -> In (n, x) ds -> seen K d x).
    Proof.
      intros F. unfold p_definitions. destruct (assoc "definitions" m) as [v|] eqn:Ev; [|apply vis_ret; discriminate].
      pose proof (vmember _ _ Ev) as Dv. apply vis_ck; [exact Dv|]. intros k Ek. destruct (existsb (kind_eqb k) [KMap; KBool]); cbn [negb]; [|apply vis_fail].
      destruct v as [|b|t|f|t|l|ds|ds]; try apply vis_panic.
      apply vis_after; [mono| |intros u; apply vis_ret; intros K; exact I].
      eapply vis_weak; [apply (vis_cmap _ (fun e K => seen K d (snd e))); [intros e; apply mono_seen|]|].
      - intros i [e x] Hin. apply in_pick in Hin; [|apply shift_fair; auto]. cbn [snd].
        assert (Wx : W d x) by (eapply W_sub; [exact HW|eapply sub_definition; eauto]).
        apply vis_ck; [eapply W_doc; eauto|]. intros k' _. destruct (existsb (kind_eqb k') [KMap; KBool]); [|apply vis_fail]. apply vis_child; [apply shift_fair; auto|auto].
      - intros K H ds' n x [= <-] Hin. apply (H (n, x)). apply in_pick; [apply shift_fair; auto|auto].
    Qed.
    Lemma v_properties o myid : fair o -> vis (p_properties ce rec o d myid m) (fun K => forall ds n x, assoc "properties" m = Some (VMap ds) -> In (n, x) ds -> seen K d x).
    Proof.
      intros F. unfold p_properties. destruct (assoc "properties" m) as [v|] eqn:Ev; [|apply vis_ret; discriminate].
      pose proof (vmember _ _ Ev) as Dv. apply vis_ck; [exact Dv|]. intros k Ek. destruct (existsb (kind_eqb k) [KMap]); cbn [negb]; [|apply vis_fail].
      destruct v as [|b|t|f|t|l|ds|ds]; try apply vis_panic.
      eapply vis_weak; [apply (vis_cmap _ (fun e K => seen K d (snd e))); [intros e; apply mono_seen|]|].
      - intros i [e x] Hin. apply in_pick in Hin; [|apply shift_fair; auto]. cbn [fst snd]. apply vis_child; [apply shift_fair; auto|].
        eapply W_sub; [exact HW|eapply SpecShape.sub_member; eauto; left; auto].
      - intros K H ds' n x [= <-] Hin. apply (H (n, x)). apply in_pick; [apply shift_fair; auto|auto].
    Qed.
    Lemma v_patternProperties o myid : fair o -> vis (p_patternProperties ce rec o d myid m) (fun K => forall ds n x, assoc "patternProperties" m = Some (VMap ds) -> In (n, x) ds -> seen K d x).
    Proof.
      intros F. unfold p_patternProperties. destruct (assoc "patternProperties" m) as [v|] eqn:Ev; [|apply vis_ret; discriminate].
      pose proof (vmember _ _ Ev) as Dv. apply vis_ck; [exact Dv|]. intros k Ek. destruct (existsb (kind_eqb k) [KMap]); cbn [negb]; [|apply vis_fail].
      destruct v as [|b|t|f|t|l|ds|ds]; try apply vis_panic.
      eapply vis_weak; [apply (vis_cmap _ (fun e K => seen K d (snd e))); [intros e; apply mono_seen|]|].
      - intros i [e x] Hin. apply in_pick in Hin; [|apply shift_fair; auto]. cbn [fst snd]. destruct (e_re_ok (c_go ce) e); [|apply vis_fail].
        apply vis_after; [apply mono_seen|apply vis_child; [apply shift_fair; auto|]|intros id; apply vis_ret; intros K; exact I].
        eapply W_sub; [exact HW|eapply SpecShape.sub_member; eauto; right; left; auto].
      - intros K H ds' n x [= <-] Hin. apply (H (n, x)). apply in_pick; [apply shift_fair; auto|auto].
    Qed.
    Lemma v_additional o key myid : In key ["additionalProperties"; "additionalItems"] -> fair o ->
      vis (p_additional ce rec o key d myid m) (fun K => forall x, assoc key m = Some x -> ~ is_boolean x -> seen K d x).
    Proof.
      intros Hk F. unfold p_additional. destruct (assoc key m) as [v|] eqn:Ev; [|apply vis_ret; discriminate].
      pose proof (vmember _ _ Ev) as Dv. apply vis_ck; [exact Dv|]. intros k Ek. destruct (existsb (kind_eqb k) [KBool]) eqn:Eb.
      - destruct v as [|b|t|f|t|l|ds|ds]; try apply vis_panic. apply vis_ret. intros K x [= <-] N. destruct N. eexists; eauto.
      - apply vis_ck; [exact Dv|]. intros k' Ek'. destruct (existsb (kind_eqb k') [KMap]) eqn:Eb2; [|apply vis_fail].
        destruct (ck_map ce v k' Dv Ek' Eb2) as [ds ->]. apply vis_after; [mono| |intros id; apply vis_ret; intros K; exact I].
        eapply vis_weak; [apply vis_child; auto; eapply W_sub; [exact HW|eapply sub_additional; eauto; intros [b X]; discriminate]|]. intros K H x [= <-] _. exact H.
    Qed.
    Lemma v_schema o key err myid : (forall x, assoc key m = Some x -> subschema d m x) -> fair o ->
      vis (p_schema ce rec o key d myid err m) (fun K => forall x, assoc key m = Some x -> seen K d x).
    Proof.
      intros Hs F. unfold p_schema. destruct (assoc key m) as [v|] eqn:Ev; [|apply vis_ret; discriminate].
      pose proof (vmember _ _ Ev) as Dv. apply vis_ck; [exact Dv|]. intros k Ek. destruct (existsb (kind_eqb k) [KMap; KBool]); [|apply vis_fail].
      apply vis_after; [mono| |intros id; apply vis_ret; intros K; exact I].
      eapply vis_weak; [apply vis_child; auto; eapply W_sub; [exact HW|apply Hs; auto]|]. intros K H x [= <-]. exact H.
    Qed.
    Lemma v_propertyNames o myid : fair o -> vis (p_propertyNames ce rec o d myid m) (fun K => forall x, since6 d -> assoc "propertyNames" m = Some x -> seen K d x).
    Proof.
      intros F. unfold p_propertyNames. destruct (draft_ge6 d) eqn:Eg; [|apply vis_ret; intros K x Hx; apply since6_ge6 in Hx; congruence].
      apply since6_ge6 in Eg. eapply vis_weak; [apply v_schema; auto|intros K H x _; apply H]. intros x Ex. eapply sub_since6; eauto. right. left. auto.
    Qed.
    Lemma v_cond o key myid : In key ["if"; "then"; "else"] -> fair o -> vis (p_cond ce rec o key d myid m) (fun K => forall x, since7 d -> assoc key m = Some x -> seen K d x).
    Proof.
      intros Hk F. unfold p_cond. destruct (draft_ge7 d) eqn:Eg; [|apply vis_ret; intros K x Hx; apply (since7_ge7 W d m HW) in Hx; congruence].
      apply (since7_ge7 W d m HW) in Eg. eapply vis_weak; [apply v_schema; auto|intros K H x _; apply H]. intros x Ex. eapply sub_since7; eauto.
    Qed.
    Lemma v_contains o myid : fair o -> vis (p_contains rec o d myid m) (fun K => forall x, since6 d -> assoc "contains" m = Some x -> seen K d x).
    Proof.
      intros F. unfold p_contains. destruct (draft_ge6 d) eqn:Eg; [|apply vis_ret; intros K x Hx; apply since6_ge6 in Hx; congruence].
      apply since6_ge6 in Eg. destruct (assoc "contains" m) as [v|] eqn:Ev; [|apply vis_ret; discriminate].
      apply vis_after; [mono| |intros id; apply vis_ret; intros K; exact I].
      eapply vis_weak; [apply vis_child; auto; eapply W_sub; [exact HW|eapply sub_since6; eauto; left; auto]|]. intros K H x _ [= <-]. exact H.
    Qed.
    Lemma v_dependencies o myid : fair o ->
      vis (p_dependencies ce rec o d myid m) (fun K => forall ds n x, assoc "dependencies" m = Some (VMap ds) -> In (n, x) ds -> ~ is_array x -> seen K d x).
    Proof.
      intros F. unfold p_dependencies. destruct (assoc "dependencies" m) as [v|] eqn:Ev; [|apply vis_ret; discriminate].
      pose proof (vmember _ _ Ev) as Dv. apply vis_ck; [exact Dv|]. intros k Ek. destruct (existsb (kind_eqb k) [KMap]); cbn [negb]; [|apply vis_fail].
      destruct v as [|b|t|f|t|l|ds|ds]; try apply vis_panic.
      apply vis_after; [mono| |intros u; apply vis_ret; intros K; exact I].
      eapply vis_weak; [apply (vis_cmap _ (fun e K => ~ is_array (snd e) -> seen K d (snd e))); [intros e; mono|]|].
      - intros i [e x] Hin. apply in_pick in Hin; [|apply shift_fair; auto]. unfold p_dependency. cbn [fst snd].
        assert (Wx : ~ is_array x -> W d x) by (intros N; eapply W_sub; [exact HW|eapply sub_dependency; eauto]).
        destruct x as [|b|t|f|t|l|o1|o1]; try apply vis_fail.
        + apply vis_after; [mono| |intros u; apply vis_ret; intros K; exact I].
          eapply vis_weak; [apply vis_child; [apply shift_fair; auto|apply Wx; intros [? X]; discriminate]|auto].
        + apply vis_then; [apply vis_still; auto with still|]. intros ks. apply vis_ret. intros K N. destruct N. eexists; eauto.
        + apply vis_after; [mono| |intros u; apply vis_ret; intros K; exact I].
          eapply vis_weak; [apply vis_child; [apply shift_fair; auto|apply Wx; intros [? X]; discriminate]|auto].
        + apply vis_after; [mono| |intros u; apply vis_ret; intros K; exact I].
          eapply vis_weak; [apply vis_child; [apply shift_fair; auto|apply Wx; intros [? X]; discriminate]|auto].
      - intros K H ds' n x [= <-] Hin. apply (H (n, x)). apply in_pick; [apply shift_fair; auto|auto].
    Qed.
    Lemma v_schemas o key ek myid : In key ["oneOf"; "anyOf"; "allOf"] -> fair o ->
      vis (p_schemas ce rec o key ek d myid m) (fun K => forall l x, assoc key m = Some (VArr l) -> In x l -> seen K d x).
    Proof.
      intros Hk F. unfold p_schemas. destruct (assoc key m) as [v|] eqn:Ev; [|apply vis_ret; discriminate].
      pose proof (vmember _ _ Ev) as Dv. apply vis_ck; [exact Dv|]. intros k Ek. destruct (existsb (kind_eqb k) [KSlice]); [|apply vis_fail].
      destruct v as [|b|t|f|t|l|ds|ds]; try apply vis_fail.
      eapply vis_weak; [apply (vis_cmap _ (fun e K => seen K d e)); [intros e; apply mono_seen|]|].
      - intros i x Hin. apply vis_child; [apply shift_fair; auto|]. eapply W_sub; [exact HW|eapply sub_element; eauto]. right. auto.
      - intros K H l' x [= <-] Hin. auto.
    Qed.
    Lemma v_items o myid : fair o -> vis (p_items ce rec o d myid m)
      (fun K => (forall l x, assoc "items" m = Some (VArr l) -> In x l -> seen K d x) /\ (forall x, assoc "items" m = Some x -> ~ is_array x -> seen K d x)).
    Proof.
      intros F. unfold p_items. destruct (assoc "items" m) as [v|] eqn:Ev; [|apply vis_ret; split; discriminate].
      pose proof (vmember _ _ Ev) as Dv. apply vis_ck; [exact Dv|]. intros k Ek. destruct (existsb (kind_eqb k) [KSlice]) eqn:Eb.
      - destruct v as [|b|t|f|t|l|ds|ds]; try apply vis_panic.
        apply vis_after; [intros K K' H [X Y]; split; intros; (eapply seen_mono; [exact H|]); eauto| |intros u; apply vis_ret; intros K; exact I].
        eapply vis_weak; [apply (vis_cmap _ (fun e K => seen K d e)); [intros e; apply mono_seen|]|].
        + intros i x Hin. assert (Wx : W d x) by (eapply W_sub; [exact HW|eapply sub_element; eauto; left; auto]).
          apply vis_ck; [eapply W_doc; eauto|]. intros k' _. destruct (existsb (kind_eqb k') [KMap; KBool]); [|apply vis_fail]. apply vis_child; [apply shift_fair; auto|auto].
        + intros K H. split; [intros l' x [= <-] Hin; auto|]. intros x [= <-] N. destruct N. eexists; eauto.
      - apply vis_ck; [exact Dv|]. intros k' Ek'. destruct (existsb (kind_eqb k') [KMap; KBool]) eqn:Eb2; [|apply vis_fail].
        assert (NA : ~ is_array v). { intros [l ->]. cbn in Ek. injection Ek as <-. discriminate. }
        apply vis_after; [intros K K' H [X Y]; split; intros; (eapply seen_mono; [exact H|]); eauto| |intros u; apply vis_ret; intros K; exact I].
        eapply vis_weak; [apply vis_child; auto; eapply W_sub; [exact HW|eapply sub_items; eauto]|].
        intros K H. split; [intros l x [= ->]; destruct NA; eexists; eauto|]. intros x [= <-] _. exact H.
    Qed.
    Lemma mono_part (P : value -> Prop) : mono (fun K => forall x, P x -> seen K d x).
    Proof. mono. Qed.
    Lemma v_keywords o a myid refid : fair o -> pa_draft a = d -> vis (p_keywords ce rec o a myid refid m)
      (fun K => (forall ds n y, assoc "definitions" m = Some (VMap ds) -> In (n, y) ds -> seen K d y) -> forall x, subschema d m x -> seen K d x).
    Proof.
      intros F Ea. unfold p_keywords. rewrite Ea.
      eapply vis_weak.
      - apply vis_then; [apply vis_still; auto with still|intros types].
        eapply vis_bind; [|apply v_properties; apply shift_fair; auto|intros props]; [mono|].
        eapply vis_bind; [|apply v_additional; [left; auto|apply shift_fair; auto]|intros addp]; [mono|].
        eapply vis_bind; [|apply v_patternProperties; apply shift_fair; auto|intros pats]; [mono|].
        eapply vis_bind; [|apply v_propertyNames; apply shift_fair; auto|intros pn]; [mono|].
        eapply vis_bind; [|apply v_dependencies; apply shift_fair; auto|intros deps]; [mono|].
        eapply vis_bind; [|apply v_items; apply shift_fair; auto|intros items]; [intros K K' H [X Y]; split; intros; (eapply seen_mono; [exact H|]); eauto|].
        eapply vis_bind; [|apply v_additional; [right; left; auto|apply shift_fair; auto]|intros addi]; [mono|].
        do 15 (apply vis_then; [apply vis_still; auto with still|intros ?]).
        eapply vis_bind; [|apply v_contains; apply shift_fair; auto|intros co]; [mono|].
        do 2 (apply vis_then; [apply vis_still; auto with still|intros ?]).
        eapply vis_bind; [|apply v_schemas; [cbn; tauto|apply shift_fair; auto]|intros s1]; [mono|].
        eapply vis_bind; [|apply v_schemas; [cbn; tauto|apply shift_fair; auto]|intros s2]; [mono|].
        eapply vis_bind; [|apply v_schemas; [cbn; tauto|apply shift_fair; auto]|intros s3]; [mono|].
        eapply vis_bind; [|apply v_schema; [intros x Ex; apply sub_not; exact Ex|apply shift_fair; auto]|intros nt]; [mono|].
        eapply vis_bind; [|apply v_cond; [cbn; tauto|apply shift_fair; auto]|intros c1]; [mono|].
        eapply vis_bind; [|apply v_cond; [cbn; tauto|apply shift_fair; auto]|intros c2]; [mono|].
        eapply vis_bind; [|apply v_cond; [cbn; tauto|apply shift_fair; auto]|intros c3]; [mono|].
        apply (vis_ret _ none). intros K. exact I.
      - intros K (A2 & A3 & A4 & A5 & A6 & (A7 & A7') & A8 & A24 & A27 & A28 & A29 & A30 & A31 & A32 & A33 & _) N x S.
        destruct S as [ds e x E Hin|k ms e x Hk E Hin|k x Hk E Nb|ds e x E Hin Na|x E Na|k l x Hk E Hin|k x Hd6 Hk E|k x Hd7 Hk E|x E].
        + eapply N; eauto.
        + destruct Hk as [<-|[<-|[]]]; [eapply A2|eapply A4]; eauto.
        + destruct Hk as [<-|[<-|[]]]; [apply A3|apply A8]; auto.
        + eapply A6; eauto.
        + apply A7'; auto.
        + destruct Hk as [<-|[<-|[<-|[<-|[]]]]]; [eapply A7|eapply A27|eapply A28|eapply A29]; eauto.
        + destruct Hk as [<-|[<-|[]]]; [apply A24|apply A5]; auto.
        + destruct Hk as [<-|[<-|[<-|[]]]]; [apply A31|apply A32|apply A33]; auto.
        + apply A30; auto.
    Qed.
  End Node.

  Lemma v_node k (IH : forall o a id v, fair o -> W (pa_draft a) v -> vis (parseSchema ce k o a id v) (fun K => seen K (pa_draft a) v)) :
    forall o a id v, fair o -> W (pa_draft a) v -> vis (parseSchemaNode ce (parseSchema ce k) o a id v) (fun K => seen K (pa_draft a) v).
  Proof.
    intros o a id v F Wv. unfold parseSchemaNode. set (d := pa_draft a) in *. pose proof (W_doc _ _ Wv) as Dv.
    apply vis_then; [destruct (draft_ge6 d); apply vis_still; [unfold ck; apply still_lift|apply still_ret]|]. intros isb. destruct isb.
    { destruct v as [|b|t|f|t|l|m|m]; try apply vis_panic. eapply vis_weak; [apply vis_store|]. intros K _. constructor. }
    apply vis_ck; [exact Dv|]. intros kd Ek. destruct (existsb (kind_eqb kd) [KMap]); cbn [negb]; [|apply vis_fail].
    destruct v as [|b|t|f|t|l|m|m]; try apply vis_panic.
    apply vis_then; [apply vis_still; auto with still|]. intros myid.
    set (DEF := fun K => forall ds n y, assoc "definitions" m = Some (VMap ds) -> In (n, y) ds -> seen K d y).
    assert (MD : mono DEF) by (intros K K' H X ds n y E1 E2; eapply seen_mono; [exact H|eapply X; eauto]).
    eapply vis_weak; [eapply (vis_bind _ _ _ (fun K => DEF K -> seen K d (VMap m))); [exact MD|apply (v_definitions (parseSchema ce k) IH d m Wv); apply shift_fair; auto|]|].
    2: { intros K [X Y]. exact (Y X). }
    intros u0.
    apply vis_then; [apply vis_still; auto with still|]. intros u1. apply vis_then; [apply vis_still; auto with still|]. intros u2. apply vis_then; [apply vis_still; auto with still|]. intros u3.
    assert (KEY : forall refid, vis (p_keywords ce (parseSchema ce k) o a myid refid m) (fun K => DEF K -> forall x, subschema d m x -> seen K d x)).
    { intros refid. apply (v_keywords (parseSchema ce k) IH d m Wv); auto. }
    assert (NOREF : (forall k, assoc "$ref" m <> Some (VStr k)) ->
       vis (let! nd := p_keywords ce (parseSchema ce k) o a myid None m in store id nd) (fun K => DEF K -> seen K d (VMap m))).
    { intros NR s x s' Hp E. unfold cbind in E. destruct (p_keywords ce (parseSchema ce k) o a myid None m s) as [nd s1|e1 s1| |] eqn:E1; try discriminate.
      destruct (KEY None _ _ _ Hp E1) as (P1 & L1 & D1 & Q1). destruct (vis_store id nd _ _ _ P1 E) as (P2 & L2 & D2 & _). injection E as _ <-.
      split; auto. split; auto. split; auto. intros X. constructor; [intros k0 r E0; destruct (NR _ E0)|auto|]. intros _. apply Q1. exact X. }
    destruct (assoc "$ref" m) as [v|] eqn:Er; [|apply NOREF; discriminate].
    destruct v as [|b|t|f|t|l|m'|m']; try (apply NOREF; discriminate). clear NOREF.
    destruct (u_parse ce t) as [r|] eqn:Eu; [|apply vis_fail].
    assert (READ : forall K : string -> Prop, K r -> DEF K -> seen K d (VMap m)).
    { intros K HK X. constructor; auto.
      - intros k0 r0 E0 E1. rewrite Er in E0. injection E0 as <-. rewrite Eu in E1. injection E1 as <-. exact HK.
      - intros N. destruct (N t). exact Er. }
    intros s x s' Hp E. unfold cbind at 1, refs_get at 1 in E. destruct (assoc r (st_refs s)) as [rid|] eqn:Ehit.
    - assert (V : vis (let! nd := p_keywords ce (parseSchema ce k) o a myid (Some rid) m in store id nd) none).
      { apply vis_then; [|intros nd; apply vis_store]. eapply vis_weak; [apply KEY|intros K _; exact I]. }
      destruct (V _ _ _ Hp E) as (P1 & L1 & D1 & _). split; auto. split; auto. split; auto. apply READ. apply L1. unfold known. congruence.
    - unfold cbind at 1 in E. destruct (parseReference ce (parseSchema ce k) (shift o 16) d myid r s) as [rid s1|e1 s1| |] eqn:E1; try discriminate.
      injection E as _ <-. unfold parseReference in E1. unfold cbind at 1, alloc at 1 in E1. unfold cbind at 1, refs_add at 1 in E1. cbn [st_heap st_src st_pool st_refs] in E1.
      rewrite Ehit in E1. match type of E1 with context [CState ?h ?src ?p ?rf] => set (s2 := CState h src p rf) in E1 end.
      unfold cbind at 1 in E1. destruct (GetDocument ce (shift (shift o 16) 0) r s2) as [e s3|e3 s3| |] eqn:EG; try discriminate.
      destruct (W_get _ _ _ _ Wv Er Eu _ s2 _ _ (shift_fair _ _ (shift_fair _ _ F)) Hp EG) as (P3 & R3 & HG).
      pose proof (W_ref _ _ _ _ _ Wv Er Eu HG) as We. pose proof (W_doc _ _ We) as De. fold (target d e) in E1.
      unfold cbind at 1 in E1. destruct (ck_run ce (sp_doc e) [KMap; KBool] s3 De) as [(k' & _ & Ec)|[Ec _]]; rewrite Ec in E1; [|discriminate].
      destruct (existsb (kind_eqb k') [KMap; KBool]); cbn [negb] in E1; [|discriminate].
      unfold cbind at 1 in E1. match type of E1 with context [CState ?h ?src (st_pool s3) ?rf] => set (s4 := CState h src (st_pool s3) rf) in E1 end.
      unfold cbind at 1 in E1.
      match type of E1 with context [parseSchema ce k ?o' ?a' ?id' ?v' s4] => set (o5 := o') in E1; set (a5 := a') in E1; destruct (parseSchema ce k o5 a5 id' v' s4) as [u s5|e5 s5| |] eqn:E5 end; try discriminate.
      injection E1 as _ <-. destruct u.
      assert (F5 : fair o5) by (unfold o5; repeat apply shift_fair; auto).
      assert (P4 : PI (st_pool s4)) by exact P3.
      destruct (IH o5 a5 _ _ F5 We _ _ _ P4 E5) as (P5 & L5 & D5 & Q5).
      destruct (parse_reads _ _ a5 _ _ _ _ F5 We P4 E5) as [_ RD].
      assert (K4 : forall q, known s4 q <-> known s q \/ q = r).
      { intros q. unfold known. change (st_refs s4) with (st_refs s3). rewrite R3. unfold s2. cbn [st_refs].
        destruct (assoc q (st_refs s)) eqn:Eq; [rewrite (assoc_snoc_old _ _ _ _ _ Eq); intuition congruence|].
        destruct (String.eqb_spec q r) as [->|Nq]; [rewrite assoc_snoc_new by auto; intuition congruence|].
        assert (EN : assoc q (st_refs s ++ [(r, length (st_heap s))]) = None).
        { clear - Eq Nq. induction (st_refs s) as [|[k y] l IHl]; cbn [assoc app] in *; [destruct (String.eqb_spec q r); congruence|]. destruct (String.eqb q k); [discriminate|auto]. }
        rewrite EN. intuition congruence. }
      cbn [st_pool st_refs]. split; auto. change (known (CState (set_nth id (ref_node (pa_prop a) rid) (st_heap s5)) (st_src s5) (st_pool s5) (st_refs s5))) with (known s5).
      split; [intros q Hq; apply L5, K4; auto|]. split.
      + intros q Hq. destruct (D5 q Hq) as [H4|X]; auto. apply K4 in H4. destruct H4 as [H4| ->]; auto. right.
        exists d, m, t, e. repeat (split; auto).
      + apply READ. apply L5, K4. auto.
  Qed.
  Theorem parseSchema_vis k : forall o a id v, fair o -> W (pa_draft a) v -> vis (parseSchema ce k o a id v) (fun K => seen K (pa_draft a) v).
  Proof.
    induction k as [|k IH]; intros o a id v F Wv.
    - intros s x s' _ E. discriminate.
    - cbn [parseSchema]. apply v_node; auto.
  Qed.

  (** The document compiled, and all that was reached from it. *)
  Theorem parse_vis fuel o docref d doc p id s' : fair o -> PI p -> W d doc -> parse ce fuel o docref d doc (CState [] [] p []) = COk id s' ->
    seen (known s') d doc /\ (mod_ doc -> read_ok re url d doc) /\ forall r, known s' r -> done (known s') r.
  Proof.
    intros F Hp Wd E. unfold parse in E. unfold cbind at 1, alloc at 1 in E. cbn [st_heap st_src st_pool st_refs app length] in E. unfold cbind at 1 in E.
    match type of E with context [parseSchema ce fuel o ?a ?i doc ?s] => destruct (parseSchema ce fuel o a i doc s) as [u s1|e1 s1| |] eqn:E1 end; try discriminate.
    injection E as <- <-. destruct u.
    match type of E1 with parseSchema ce fuel o ?a ?i doc ?s = _ => set (a1 := a) in E1; set (s0 := s) in E1 end.
    destruct (parseSchema_vis fuel o a1 0 doc F Wd s0 tt s1 Hp E1) as (_ & _ & D & Q).
    destruct (parse_reads _ _ a1 _ _ s0 _ F Wd Hp E1) as [_ RD].
    split; [exact Q|]. split; [exact RD|]. intros r Hr. destruct (D r Hr) as [X|X]; auto. destruct X. reflexivity.
  Qed.
End Visit.

(** ** Success means that every schema met is right *)
(** Beside a reference there is nothing to go wrong: well-shaped keywords, and
    no schemas but definitions. *)
Definition sealed (re : string -> Prop) (d : draft) (m : list (string * value)) : Prop :=
  plain_shapes re same d m /\ schema_shapes re m /\
  forall x, subschema d m x -> exists ds n, assoc "definitions" m = Some (VMap ds) /\ In (n, x) ds.

Section Right.
  Variable ce : cenv.
  Notation lim := (e_ratlim (c_go ce)).
  Notation re := (fun p => e_re_ok (c_go ce) p = true).
  Notation url := (fun s => u_parse ce s <> None).
  Notation mod_ := (all_numbers (moderate lim)).
  Variable G : string -> spd -> Prop.
  Variable d0 : draft.
  Variable doc : value.
  Notation T := (leads_in ce G).
  Notation met := (meets T d0 doc).
  Hypothesis G_fun : forall r e e', G r e -> G r e' -> e = e'.
  Hypothesis Hmod : forall d v, met d v -> mod_ v.
  Hypothesis Hset : settled_in G d0.
  Hypothesis Hsealed : forall d m k, met d (VMap m) -> assoc "$ref" m = Some (VStr k) -> sealed re d m.

  Theorem seen_right K : seen ce K d0 doc -> (mod_ doc -> read_ok re url d0 doc) ->
    (forall r, K r -> done ce met G K r) -> forall d v, met d v -> right ce d v.
  Proof.
    intros S0 R0 HK.
    assert (ONE : (forall r e x, G r e -> sp_draft e = Some x -> x = d0) -> forall d v, met d v -> d = d0).
    { intros H d v M. induction M as [|d m x M IH _|d m k d' x M IH _ (r & e & _ & HG & _ & ->)]; auto. destruct (sp_draft e) eqn:Es; eauto. }
    assert (A : forall d v, met d v -> seen ce K d v /\ read_ok re url d v).
    { intros d v M. induction M as [|d m x M [S R] Sub|d m k d' x M [S R] E L].
      - split; auto. apply R0. apply (Hmod _ _ (meets_root T d0 doc)).
      - assert (DEC : (exists k, assoc "$ref" m = Some (VStr k)) \/ forall k, assoc "$ref" m <> Some (VStr k)).
        { destruct (assoc "$ref" m) as [[| | | |t| | |]|]; eauto; right; discriminate. }
        inversion S as [|m0 S1 S2 S3]; subst. destruct DEC as [[k E]|N].
        + destruct (proj2 (proj2 (Hsealed _ _ _ M E)) _ Sub) as (ds & n & E1 & E2). split; [eapply S2; eauto|].
          inversion R as [|m0 k0 H1 H2 H3|m0 H1 H2]; subst; eauto.
        + split; auto. inversion R as [|m0 k0 H1 H2 H3|m0 H1 H2]; subst; eauto. destruct (N _ H2).
      - pose proof (meets_ref T d0 doc d m k d' x M E L) as M'. destruct L as (r & e & Eu & HG & -> & Ed).
        inversion S as [|m0 S1 S2 S3]; subst. destruct (HK r (S1 _ _ E Eu)) as (d1 & m1 & k1 & e1 & N1 & N2 & N3 & N4 & N5 & N6).
        assert (e1 = e) by eauto. subst e1. 
        assert (M1 : met (target d1 e) (sp_doc e)) by (eapply meets_ref; [exact N1|exact N2|]; exists r, e; repeat (split; auto)).
        assert (ED : match sp_draft e with Some d => d | None => d end = target d1 e).
        { destruct Hset as [H|H]; [unfold target; destruct (sp_draft e) eqn:Es; [auto|destruct (H _ _ HG Es)]|]. rewrite (ONE H _ _ M'), (ONE H _ _ M1). auto. }
        rewrite ED. split; auto. apply N6. eapply Hmod; eauto. }
    intros d v M. destruct (A d v M) as [_ R]. split; [eapply Hmod; eauto|]. inversion R as [b H1|m0 k0 H1 H2 H3|m0 H1 H2]; subst; auto.
    destruct (Hsealed _ _ _ M H2) as (P1 & P2 & _). split; auto.
  Qed.
End Right.
