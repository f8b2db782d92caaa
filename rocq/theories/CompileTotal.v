(** Compilation always returns; it fails only on an ill-formed schema and
    panics only on the shapes known to make it panic; and when it succeeds, the
    schemas it read are well formed. *)
From Verif Require Export CompileShape CompileRefs.
From Coq Require Import Lia.
Open Scope nat_scope.

(** What a successful compilation has checked: beside "$ref" it looks only at
    the keywords of the head. *)
Section Checked.
  Variable re : string -> Prop.
  Variable url : string -> Prop.
  Inductive read_ok (d : draft) : value -> Prop :=
  | read_bool b : since6 d -> read_ok d (VBool b)
  | read_ref m k : head_shapes url d m -> assoc "$ref" m = Some (VStr k) ->
      (forall ds n x, assoc "definitions" m = Some (VMap ds) -> In (n, x) ds -> read_ok d x) -> read_ok d (VMap m)
  | read_object m : shapes re url same d m -> (forall x, subschema d m x -> read_ok d x) -> read_ok d (VMap m).
End Checked.

(** Computations that leave the state alone, whatever they return. *)
Definition still {A} (c : comp A) : Prop := forall s, match c s with COk _ s' | CErr _ s' => s' = s | _ => True end.
Lemma still_ret {A} (a : A) : still (cret a).
Proof. intros s. reflexivity. Qed.
Lemma still_fail {A} e : still (@cfail A e).
Proof. intros s. reflexivity. Qed.
Lemma still_panic {A} : still (@cpanic A).
Proof. intros s. exact I. Qed.
Lemma still_bind {A B} (c : comp A) (f : A -> comp B) : still c -> (forall a, still (f a)) -> still (cbind c f).
Proof. intros H1 H2 s. specialize (H1 s). unfold cbind. destruct (c s) as [a s'|e s'| |]; auto. subst. apply H2. Qed.
Lemma still_lift {A} (x : out A) : still (lift_out x).
Proof. intros s. destruct x; cbn; auto. Qed.
Ltac still := repeat first
  [ apply still_ret | apply still_fail | apply still_panic | apply still_lift | apply still_bind; [|intros ?]
  | match goal with |- still (match ?x with _ => _ end) => destruct x end
  | match goal with |- still (if ?x then _ else _) => destruct x end ].
Lemma still_types_add t e : still (types_add t e).
Proof. unfold types_add. still. Qed.
Lemma still_add_types l : forall t, still (add_types t l).
Proof. induction l as [|x l IH]; intros t; cbn [add_types]; still; auto using still_types_add. Qed.
Lemma still_type ce m : still (p_type ce m).
Proof. unfold p_type, ck. still; auto using still_types_add, still_add_types. Qed.
Lemma still_id ce a m : still (p_id ce a m).
Proof. unfold p_id, ck. cbv zeta. still. Qed.
Lemma still_string_only ce k m : still (p_string_only ce k m).
Proof. unfold p_string_only, ck. still. Qed.
Lemma still_multipleOf ce m : still (p_multipleOf ce m).
Proof. unfold p_multipleOf. still. Qed.
Lemma still_bound ce k x d m : still (p_bound ce k x d m).
Proof. unfold p_bound, ck. cbv zeta. still. Qed.
Lemma still_natural ce k m : still (p_natural ce k m).
Proof. unfold p_natural. still. Qed.
Lemma still_le a b e : still (p_le a b e).
Proof. unfold p_le. still. Qed.
Lemma still_pattern ce m : still (p_pattern ce m).
Proof. unfold p_pattern, ck. still. Qed.
Lemma still_format m : still (p_format m).
Proof. unfold p_format. still. Qed.
Lemma still_add_required ce l : forall t, still (add_required ce t l).
Proof. induction l as [|x l IH]; intros t; cbn [add_required]; unfold ck; still; auto. Qed.
Lemma still_required ce m : still (p_required ce m).
Proof. unfold p_required, ck. still; auto using still_add_required. Qed.
Lemma still_uniqueItems ce m : still (p_uniqueItems ce m).
Proof. unfold p_uniqueItems, ck. still. Qed.
Lemma still_const d m : still (p_const d m).
Proof. unfold p_const. still. Qed.
Lemma still_add_enum l : forall t, still (add_enum t l).
Proof. induction l as [|x l IH]; intros t; cbn [add_enum]; still; auto. Qed.
Lemma still_enum ce m : still (p_enum ce m).
Proof. unfold p_enum, ck. still; auto using still_add_enum. Qed.
Lemma still_dep_strings ce l : still (dep_strings ce l).
Proof. induction l as [|x l IH]; cbn [dep_strings]; unfold ck; still; auto. Qed.
#[global] Hint Resolve still_type still_id still_string_only still_multipleOf still_bound still_natural still_le still_pattern still_format
  still_required still_uniqueItems still_const still_enum still_dep_strings : still.

Section Total.
  Variable ce : cenv.
  Notation lim := (e_ratlim (c_go ce)).
  Notation re := (fun p => e_re_ok (c_go ce) p = true).
  Notation url := (fun s => u_parse ce s <> None).
  Notation mod_ := (all_numbers (moderate lim)).
  Hypothesis Hinh : forall b s r, u_parse ce s = Some r -> u_inherits ce b r <> None.

  (** Locally well formed. *)
  Definition right (d : draft) (v : value) : Prop :=
    mod_ v /\ match v with VBool _ => since6 d | VMap m => shapes re url same d m | _ => False end.
  Definition tame (v : value) : Prop := mod_ v /\ forall m, v = VMap m -> ~ panic_shape m.

  (** The schemas compilation can meet, and the references it can follow. *)
  Variable W : draft -> value -> Prop.
  Variable R : list string.
  Variable M : nat.
  Variable PI : pool -> Prop.
  (** Excuses for failing, panicking and not returning. *)
  Variables ER EP EN : Prop.
  Hypothesis W_doc : forall d v, W d v -> doc_ok v /\ (EN \/ vsize v <= M).
  Hypothesis W_sub : forall d m x, W d (VMap m) -> subschema d m x -> W d x.
  Hypothesis HE : forall d v, W d v -> ~ right d v -> ER.
  Hypothesis HP : forall d v, W d v -> ~ tame v -> EP.

  Definition left (s : cstate) : nat := length (filter (fun r => match assoc r (st_refs s) with None => true | _ => false end) R).
  Definition tri {A} (n : nat) (c : comp A) (Q : A -> Prop) : Prop :=
    forall s, PI (st_pool s) -> left s <= n ->
    match c s with
    | COk a s' => PI (st_pool s') /\ left s' <= n /\ Q a
    | CErr _ s' => ER /\ PI (st_pool s')
    | CPanic => EP
    | CNoFuel => EN
    end.
  Hypothesis W_ref : forall d m k r, W d (VMap m) -> assoc "$ref" m = Some (VStr k) -> u_parse ce k = Some r ->
    (EN \/ In r R) /\ forall n o, fair o -> tri n (GetDocument ce o r) (fun e => W (match sp_draft e with Some x => x | None => d end) (sp_doc e)).

  Lemma tri_bind {A B} n (c : comp A) (f : A -> comp B) Q Q' : tri n c Q -> (forall a, Q a -> tri n (f a) Q') -> tri n (cbind c f) Q'.
  Proof.
    intros H1 H2 s Hp Hl. specialize (H1 s Hp Hl). unfold cbind. destruct (c s) as [a s'|e s'| |]; auto. destruct H1 as (P1 & L1 & Qa). apply (H2 a Qa s' P1 L1).
  Qed.
  Lemma tri_ret {A} n (a : A) (Q : A -> Prop) : Q a -> tri n (cret a) Q.
  Proof. intros H s Hp Hl. cbn. auto. Qed.
  Lemma tri_fail {A} n e (Q : A -> Prop) : ER -> tri n (cfail e) Q.
  Proof. intros H s Hp Hl. cbn. auto. Qed.
  Lemma tri_panic {A} n (Q : A -> Prop) : EP -> tri n cpanic Q.
  Proof. intros H s Hp Hl. exact H. Qed.
  Lemma tri_weak {A} n (c : comp A) (Q Q' : A -> Prop) : tri n c Q -> (forall a, Q a -> Q' a) -> tri n c Q'.
  Proof. intros H1 H2 s Hp Hl. specialize (H1 s Hp Hl). destruct (c s) as [a s'|e s'| |]; auto. destruct H1 as (P1 & L1 & Qa). auto. Qed.
  Lemma tri_heap {A} n (f : cstate -> A) g (Q : A -> Prop) : (forall s, Q (f s)) -> (forall s, st_pool (g s) = st_pool s /\ st_refs (g s) = st_refs s) ->
    tri n (fun s => COk (f s) (g s)) Q.
  Proof. intros H1 H2 s Hp Hl. destruct (H2 s) as [E1 E2]. unfold left. rewrite E1, E2. auto. Qed.
  Lemma tri_alloc n prop d doc : tri n (alloc prop d doc) (fun _ => True).
  Proof. apply (tri_heap n (fun s => length (st_heap s)) (fun s => CState (st_heap s ++ [empty_node prop]) (st_src s ++ [(d, doc)]) (st_pool s) (st_refs s))); auto. Qed.
  Lemma tri_store n id x : tri n (store id x) (fun _ => True).
  Proof. apply (tri_heap n (fun s => tt) (fun s => CState (set_nth id x (st_heap s)) (st_src s) (st_pool s) (st_refs s))); auto. Qed.
  Lemma tri_cmap {A B} n (f : nat -> A -> comp B) (Q : A -> Prop) l : (forall i x, In x l -> tri n (f i x) (fun _ => Q x)) ->
    forall i, tri n (cmap f i l) (fun _ => Forall Q l).
  Proof.
    induction l as [|x l IH]; intros H i; cbn [cmap]; [apply tri_ret; auto|].
    eapply tri_bind; [apply H; left; auto|]. intros y Hx. eapply tri_bind; [apply IH; intros; apply H; right; auto|]. intros ys Hl. apply tri_ret. auto.
  Qed.
  Lemma tri_ck n v ks (Hd : doc_ok v) : (~ mod_ v -> EP) ->
    tri n (ck ce v ks) (fun b => exists k, kind_of lim v = Ok k /\ b = existsb (kind_eqb k) ks).
  Proof.
    intros He s Hp Hl. destruct (ck_run ce v ks s Hd) as [(k & Ek & ->)|[-> Hn]]; eauto.
  Qed.
  Lemma ck_map_bool v k : doc_ok v -> kind_of lim v = Ok k -> existsb (kind_eqb k) [KMap; KBool] = true -> (exists m, v = VMap m) \/ exists b, v = VBool b.
  Proof.
    intros [_ D] E H. destruct v as [|b|t|f|t|l|o|o]; cbn [kind_of] in E; try (destruct (rat_of lim t)); try discriminate E; injection E as <-; try discriminate H; eauto. discriminate D.
  Qed.
  Lemma ck_map v k : doc_ok v -> kind_of lim v = Ok k -> existsb (kind_eqb k) [KMap] = true -> exists m, v = VMap m.
  Proof.
    intros [_ D] E H. destruct v as [|b|t|f|t|l|o|o]; cbn [kind_of] in E; try (destruct (rat_of lim t)); try discriminate E; injection E as <-; try discriminate H; eauto. discriminate D.
  Qed.
  Lemma not_map_bool d v k : kind_of lim v = Ok k -> existsb (kind_eqb k) [KMap; KBool] = false -> ~ right d v.
  Proof. intros E H [_ X]. destruct v as [|b|t|f|t|l|o|o]; try exact X; injection E as <-; discriminate. Qed.

  Section Node.
    Variable rec : oracle -> pargs -> nat -> value -> comp unit.
    Variable n sz : nat.
    Hypothesis HR : forall o a id v, fair o -> W (pa_draft a) v -> EN \/ vsize v < sz -> tri n (rec o a id v) (fun _ => mod_ v -> read_ok re url (pa_draft a) v).
    Variable d : draft.
    Variable m : list (string * value).
    Hypothesis HW : W d (VMap m).
    Hypothesis Hs : EN \/ vsize (VMap m) <= sz.
    Notation Hm := (mod_ (VMap m)).
    Notation read := (read_ok re url d).

    Lemma Hdoc : doc_ok (VMap m).
    Proof. apply (W_doc _ _ HW). Qed.
    Lemma wrong (P : Prop) : (shapes re url same d m -> P) -> (Hm -> ~ P) -> ER.
    Proof. intros H1 H2. apply (HE _ _ HW). intros [A B]. apply (H2 A). auto. Qed.
    Lemma crash (P : Prop) : (P -> panic_shape m) -> (Hm -> P) -> EP.
    Proof. intros H1 H2. apply (HP _ _ HW). intros [A B]. apply (B m eq_refl). auto. Qed.
    Lemma member_mod k x : assoc k m = Some x -> Hm -> mod_ x.
    Proof. intros E H. eapply all_member; eauto. Qed.
    Lemma member_crash k x : assoc k m = Some x -> ~ mod_ x -> EP.
    Proof. intros E H. apply (crash False); [tauto|]. intros Hx. apply H. eapply member_mod; eauto. Qed.
    Lemma entry_mod k ms e x : assoc k m = Some (VMap ms) -> In (e, x) ms -> Hm -> mod_ x.
    Proof. intros E Hin H. apply (member_mod _ _ E) in H. inversion H as [| | | | | |? F]; subst. rewrite Forall_forall in F. apply (F _ Hin). Qed.
    Lemma elem_mod k l x : assoc k m = Some (VArr l) -> In x l -> Hm -> mod_ x.
    Proof. intros E Hin H. apply (member_mod _ _ E) in H. inversion H as [| | | | |? F|]; subst. rewrite Forall_forall in F. apply (F _ Hin). Qed.
    Lemma member_size k x : assoc k m = Some x -> EN \/ vsize x < sz.
    Proof. intros E. apply assoc_In in E. apply vsize_member in E. destruct Hs; [left; auto|right; lia]. Qed.
    Lemma entry_size k ms e x : assoc k m = Some (VMap ms) -> In (e, x) ms -> EN \/ vsize x < sz.
    Proof. intros E Hin. apply member_size in E. apply vsize_member in Hin. destruct E; [left; auto|right; lia]. Qed.
    Lemma elem_size k l x : assoc k m = Some (VArr l) -> In x l -> EN \/ vsize x < sz.
    Proof. intros E Hin. apply member_size in E. apply vsize_item in Hin. destruct E; [left; auto|right; lia]. Qed.
    Lemma mdoc k x : assoc k m = Some x -> doc_ok x.
    Proof. apply member_doc. apply Hdoc. Qed.

    Lemma tri_decides {A} (c : comp A) P bad : decides Hm c P bad -> still c -> (shapes re url same d m -> P) -> (bad -> panic_shape m) -> tri n c (fun _ => Hm -> P).
    Proof.
      intros D ST HS HB s Hp Hl. specialize (D s). specialize (ST s). destruct (c s) as [a s'|e s'| |]; auto.
      - destruct D as [-> D]. auto.
      - subst. split; auto. eapply wrong; eauto.
      - apply (crash bad); auto. intros H. apply D. exact H.
      - destruct D.
    Qed.
    Lemma tri_child o prop myid v : fair o -> W d v -> EN \/ vsize v < sz -> tri n (child rec o prop d myid v) (fun _ => mod_ v -> read v).
    Proof.
      intros F Hv Hz. unfold child. eapply tri_bind; [apply tri_alloc|]. intros id _. eapply tri_bind.
      - apply (HR o (PArgs prop d false myid myid) id v F Hv Hz).
      - intros [] H. apply tri_ret. exact H.
    Qed.

    (** Reading the members of an object or the elements of an array. *)
    Lemma in_pick {A} o (l : list A) x : fair o -> In x (pick o l) <-> In x l.
    Proof. intros F. split; apply Permutation_in; [apply Permutation_sym|]; apply pick_perm; auto. Qed.

    Lemma t_definitions o myid : fair o -> tri n (p_definitions ce rec o d myid m)
      (fun _ => Hm -> kw m "definitions" is_object /\ forall ds e x, assoc "definitions" m = Some (VMap ds) -> In (e, x) ds -> read x).
    Proof.
      intros F. unfold p_definitions. destruct (assoc "definitions" m) as [v|] eqn:Ev; [|apply tri_ret; intros _; split; [intros x X; congruence|discriminate]].
      pose proof (mdoc _ _ Ev) as Dv. eapply tri_bind; [apply tri_ck; [exact Dv|apply (member_crash _ _ Ev)]|]. intros b (k & Ek & ->).
      destruct (existsb (kind_eqb k) [KMap; KBool]) eqn:Eb; cbn [negb].
      - destruct (ck_map_bool v k Dv Ek Eb) as [[ds ->]|[b ->]].
        + eapply tri_bind with (Q := fun _ => Forall (fun e => mod_ (snd e) -> read (snd e)) (pick (shift o 0) ds)).
          * apply tri_cmap. intros i [e x] Hin. apply in_pick in Hin; [|apply shift_fair; auto]. cbn [snd].
            assert (Wx : W d x) by (eapply W_sub; [exact HW|eapply sub_definition; eauto]).
            destruct (W_doc _ _ Wx) as [Dx _].
            eapply tri_bind; [apply tri_ck; [exact Dx|]|].
            { intros H. apply (crash False); [tauto|]. intros H'. apply H. eapply entry_mod; eauto. }
            intros b (k' & Ek' & ->). destruct (existsb (kind_eqb k') [KMap; KBool]) eqn:Eb'.
            -- apply tri_child; auto; [apply shift_fair; auto|]. eapply entry_size; eauto.
            -- apply tri_fail. apply (HE _ _ Wx). eapply not_map_bool; eauto.
          * intros l H. apply tri_ret. intros Hmm. split; [intros x X; rewrite Ev in X; injection X as <-; eexists; eauto|].
            intros ds' e x [= <-] Hin. rewrite Forall_forall in H. apply (H (e, x)); [apply in_pick; [apply shift_fair; auto|auto]|]. eapply entry_mod; eauto.
        + apply tri_panic. apply (crash True); auto. intros _. left. eauto.
      - apply tri_fail. apply (wrong (kw m "definitions" is_object)); [intros X; apply X|].
        intros _ X. destruct (X _ Ev) as [ds ->]. cbn in Ek. injection Ek as <-. discriminate.
    Qed.
    Lemma t_properties o myid : fair o -> tri n (p_properties ce rec o d myid m)
      (fun _ => Hm -> kw m "properties" is_object /\ forall ds e x, assoc "properties" m = Some (VMap ds) -> In (e, x) ds -> read x).
    Proof.
      intros F. unfold p_properties. destruct (assoc "properties" m) as [v|] eqn:Ev; [|apply tri_ret; intros _; split; [intros x X; congruence|discriminate]].
      pose proof (mdoc _ _ Ev) as Dv. eapply tri_bind; [apply tri_ck; [exact Dv|apply (member_crash _ _ Ev)]|]. intros b (k & Ek & ->).
      destruct (existsb (kind_eqb k) [KMap]) eqn:Eb; cbn [negb].
      - destruct (ck_map v k Dv Ek Eb) as [ds ->].
        eapply tri_weak with (Q := fun _ => Forall (fun e => mod_ (snd e) -> read (snd e)) (pick (shift o 0) ds)).
        + apply tri_cmap. intros i [e x] Hin. apply in_pick in Hin; [|apply shift_fair; auto]. cbn [snd fst].
          apply tri_child; [apply shift_fair; auto| |eapply entry_size; eauto]. eapply W_sub; [exact HW|eapply sub_member; eauto; left; auto].
        + intros l H Hmm. split; [intros x X; rewrite Ev in X; injection X as <-; eexists; eauto|].
          intros ds' e x [= <-] Hin. rewrite Forall_forall in H. apply (H (e, x)); [apply in_pick; [apply shift_fair; auto|auto]|]. eapply entry_mod; eauto.
      - apply tri_fail. apply (wrong (kw m "properties" is_object)); [intros X; apply X|].
        intros _ X. destruct (X _ Ev) as [ds ->]. cbn in Ek. injection Ek as <-. discriminate.
    Qed.
    Lemma t_patternProperties o myid : fair o -> tri n (p_patternProperties ce rec o d myid m)
      (fun _ => Hm -> ok_patternProperties re m /\ forall ds e x, assoc "patternProperties" m = Some (VMap ds) -> In (e, x) ds -> read x).
    Proof.
      intros F. unfold p_patternProperties. destruct (assoc "patternProperties" m) as [v|] eqn:Ev; [|apply tri_ret; intros _; split; [intros x X; congruence|discriminate]].
      pose proof (mdoc _ _ Ev) as Dv. eapply tri_bind; [apply tri_ck; [exact Dv|apply (member_crash _ _ Ev)]|]. intros b (k & Ek & ->).
      destruct (existsb (kind_eqb k) [KMap]) eqn:Eb; cbn [negb].
      - destruct (ck_map v k Dv Ek Eb) as [ds ->].
        eapply tri_weak with (Q := fun _ => Forall (fun e => e_re_ok (c_go ce) (fst e) = true /\ (mod_ (snd e) -> read (snd e))) (pick (shift o 0) ds)).
        + apply tri_cmap. intros i [e x] Hin. apply in_pick in Hin; [|apply shift_fair; auto]. cbn [snd fst].
          destruct (e_re_ok (c_go ce) e) eqn:Ere.
          * eapply tri_bind; [apply tri_child; [apply shift_fair; auto| |eapply entry_size; eauto]|]; [|intros id H; apply tri_ret; auto].
            eapply W_sub; [exact HW|eapply sub_member; eauto; right; left; auto].
          * apply tri_fail. apply (wrong (ok_patternProperties re m)); [intros X; apply X|].
            intros _ X. destruct (X _ Ev) as (ps & [= <-] & X'). rewrite (X' _ _ Hin) in Ere. discriminate.
        + intros l H Hmm. rewrite Forall_forall in H. split.
          * intros x X. rewrite Ev in X. injection X as <-. exists ds. split; auto. intros p s Hin. apply (H (p, s)). apply in_pick; [apply shift_fair; auto|auto].
          * intros ds' e x [= <-] Hin. apply (H (e, x)); [apply in_pick; [apply shift_fair; auto|auto]|]. eapply entry_mod; eauto.
      - apply tri_fail. apply (wrong (ok_patternProperties re m)); [intros X; apply X|].
        intros _ X. destruct (X _ Ev) as (ds & -> & _). cbn in Ek. injection Ek as <-. discriminate.
    Qed.
    Lemma t_additional o key myid : In key ["additionalProperties"; "additionalItems"] -> fair o -> tri n (p_additional ce rec o key d myid m)
      (fun _ => Hm -> ok_additional m key /\ forall x, assoc key m = Some x -> ~ is_boolean x -> read x).
    Proof.
      intros Hk F. unfold p_additional. destruct (assoc key m) as [v|] eqn:Ev; [|apply tri_ret; intros _; split; [intros x X; congruence|discriminate]].
      pose proof (mdoc _ _ Ev) as Dv. eapply tri_bind; [apply tri_ck; [exact Dv|apply (member_crash _ _ Ev)]|]. intros b (k & Ek & ->).
      destruct (existsb (kind_eqb k) [KBool]) eqn:Eb.
      - destruct (kind_bool ce v k Ek Eb) as [b ->]. apply tri_ret. intros _. split; [intros x X; rewrite Ev in X; injection X as <-; left; eexists; eauto|].
        intros x [= <-] N. destruct N. eexists; eauto.
      - eapply tri_bind; [apply tri_ck; [exact Dv|apply (member_crash _ _ Ev)]|]. intros b (k' & Ek' & ->). assert (k' = k) by congruence. subst k'.
        destruct (existsb (kind_eqb k) [KMap]) eqn:Eb2.
        + destruct (ck_map v k Dv Ek Eb2) as [ds ->]. eapply tri_bind; [apply tri_child; auto; [|eapply member_size; eauto]|].
          * eapply W_sub; [exact HW|eapply sub_additional; eauto]. intros [b X]. discriminate.
          * intros id H. apply tri_ret. intros Hmm. split; [intros x X; rewrite Ev in X; injection X as <-; right; eexists; eauto|].
            intros x [= <-] _. apply H. eapply member_mod; eauto.
        + apply tri_fail. apply (wrong (ok_additional m key)).
          * intros X. destruct Hk as [<-|[<-|[]]]; apply X.
          * intros _ X. destruct (X _ Ev) as [[b ->]|[ds ->]]; cbn in Ek; injection Ek as <-; discriminate.
    Qed.
    Lemma t_schema o key err myid : (forall x, assoc key m = Some x -> subschema d m x) -> fair o -> tri n (p_schema ce rec o key d myid err m)
      (fun _ => Hm -> forall x, assoc key m = Some x -> read x).
    Proof.
      intros Hsub F. unfold p_schema. destruct (assoc key m) as [v|] eqn:Ev; [|apply tri_ret; intros _; discriminate].
      pose proof (mdoc _ _ Ev) as Dv. eapply tri_bind; [apply tri_ck; [exact Dv|apply (member_crash _ _ Ev)]|]. intros b (k & Ek & ->).
      assert (Wv : W d v) by (eapply W_sub; [exact HW|apply Hsub; auto]).
      destruct (existsb (kind_eqb k) [KMap; KBool]) eqn:Eb.
      - eapply tri_bind; [apply tri_child; auto; eapply member_size; eauto|]. intros id H. apply tri_ret. intros Hmm x [= <-]. apply H. eapply member_mod; eauto.
      - apply tri_fail. apply (HE _ _ Wv). eapply not_map_bool; eauto.
    Qed.
    Lemma t_propertyNames o myid : fair o -> tri n (p_propertyNames ce rec o d myid m)
      (fun _ => Hm -> forall x, since6 d -> assoc "propertyNames" m = Some x -> read x).
    Proof.
      intros F. unfold p_propertyNames. destruct (draft_ge6 d) eqn:Eg.
      - apply since6_ge6 in Eg. eapply tri_weak; [apply t_schema; auto|].
        + intros x Ex. eapply sub_since6; eauto. right. left. auto.
        + intros a H Hmm x _. apply H. auto.
      - apply tri_ret. intros _ x Hx. apply since6_ge6 in Hx. congruence.
    Qed.
    Lemma since7_ge7 : draft_ge7 d = true <-> since7 d.
    Proof. unfold since7. destruct d; cbn; split; intros H; auto; try discriminate; destruct H; discriminate. Qed.
    Lemma t_cond o key myid : In key ["if"; "then"; "else"] -> fair o -> tri n (p_cond ce rec o key d myid m)
      (fun _ => Hm -> forall x, since7 d -> assoc key m = Some x -> read x).
    Proof.
      intros Hk F. unfold p_cond. destruct (draft_ge7 d) eqn:Eg.
      - apply since7_ge7 in Eg. eapply tri_weak; [apply t_schema; auto|].
        + intros x Ex. eapply sub_since7; eauto.
        + intros a H Hmm x _. apply H. auto.
      - apply tri_ret. intros _ x Hx. apply since7_ge7 in Hx. congruence.
    Qed.
    Lemma t_contains o myid : fair o -> tri n (p_contains rec o d myid m)
      (fun _ => Hm -> forall x, since6 d -> assoc "contains" m = Some x -> read x).
    Proof.
      intros F. unfold p_contains. destruct (draft_ge6 d) eqn:Eg.
      - apply since6_ge6 in Eg. destruct (assoc "contains" m) as [v|] eqn:Ev; [|apply tri_ret; intros _; discriminate].
        eapply tri_bind; [apply tri_child; auto; [|eapply member_size; eauto]|].
        + eapply W_sub; [exact HW|eapply sub_since6; eauto]. left. auto.
        + intros id H. apply tri_ret. intros Hmm x _ [= <-]. apply H. eapply member_mod; eauto.
      - apply tri_ret. intros _ x Hx. apply since6_ge6 in Hx. congruence.
    Qed.
    Lemma dep_strings_run l (Hl : Forall doc_ok l) : forall s,
      match dep_strings ce l s with
      | COk _ s' => s' = s /\ exists ts, l = map VStr ts
      | CErr _ _ => ~ exists ts, l = map VStr ts
      | CPanic => ~ Forall mod_ l
      | CNoFuel => False
      end.
    Proof.
      induction Hl as [|x l Hx Hl IH]; intros s; [cbn; split; auto; exists []; auto|].
      cbn [dep_strings]. unfold cbind at 1. destruct (ck_run ce x [KString] s Hx) as [(k & Ek & ->)|[-> Hn]]; [|intros F; inversion F; auto].
      destruct (existsb (kind_eqb k) [KString]) eqn:Eb.
      - destruct (kind_string ce x k Ek Eb) as [t ->]. unfold cbind. specialize (IH s). destruct (dep_strings ce l s) as [r s'|e s'| |]; auto.
        + destruct IH as (-> & ts & ->). cbn. split; auto. exists (t :: ts). auto.
        + intros (ts & E). apply IH. destruct ts as [|t' ts]; [discriminate|]. injection E as _ ->. eauto.
        + intros F. inversion F; auto.
      - cbn. intros (ts & E). destruct ts as [|t' ts]; [discriminate|]. injection E as -> _. cbn in Ek. injection Ek as <-. discriminate.
    Qed.
    Definition dep_shape (a : value) : Prop := (exists l, texts a l) \/ is_boolean a \/ is_object a.
    Lemma t_dependency ds o myid e : fair o -> assoc "dependencies" m = Some (VMap ds) -> In e ds -> tri n (p_dependency ce rec o d myid e)
      (fun _ => Hm -> dep_shape (snd e) /\ (~ is_array (snd e) -> read (snd e))).
    Proof.
      intros F Ed Hin. destruct e as [k x]. unfold p_dependency. cbn [fst snd].
      assert (Wx : ~ is_array x -> W d x) by (intros N; eapply W_sub; [exact HW|eapply sub_dependency; eauto]).
      assert (Hdx : doc_ok x). { pose proof (mdoc _ _ Ed) as D. apply doc_ok_map in D. destruct D as [_ D]. rewrite Forall_forall in D. apply (D _ Hin). }
      assert (NO : ~ dep_shape x -> ER).
      { intros N. apply (wrong (ok_dependencies m)); [intros X; apply X|]. intros _ X. destruct (X _ Ed) as (ds' & [= <-] & X'). apply N. apply (X' _ _ Hin). }
      destruct x as [|b|t|f|t|l|o1|o1]; try (apply tri_fail, NO; intros [[? X]|[[? X]|[? X]]]; discriminate).
      - eapply tri_bind; [apply tri_child; auto; [apply Wx; intros [? X]; discriminate|eapply entry_size; eauto]|].
        intros id H. apply tri_ret. intros Hmm. split; [right; left; eexists; eauto|]. intros _. apply H. eapply entry_mod; eauto.
      - eapply tri_bind with (Q := fun _ => exists ts, l = map VStr ts).
        + intros s Hp Hl. pose proof (dep_strings_run l (doc_ok_arr _ Hdx) s) as H. pose proof (still_dep_strings ce l s) as ST. destruct (dep_strings ce l s) as [r s'|er s'| |]; auto.
          * destruct H as (-> & H). auto.
          * subst s'. split; auto. apply NO. intros [[ts X]|[[? X]|[? X]]]; try discriminate. apply H. exists ts. unfold texts in X. injection X as ->. auto.
          * apply (crash False); [tauto|]. intros Hmm. apply H. pose proof (entry_mod _ _ _ _ Ed Hin Hmm) as Z. inversion Z; auto.
          * destruct H.
        + intros ks [ts ->]. apply tri_ret. intros _. split; [left; exists ts; reflexivity|]. intros N. destruct N. eexists; eauto.
      - eapply tri_bind; [apply tri_child; auto; [apply Wx; intros [? X]; discriminate|eapply entry_size; eauto]|].
        intros id H. apply tri_ret. intros Hmm. split; [right; right; eexists; eauto|]. intros _. apply H. eapply entry_mod; eauto.
      - destruct Hdx as [_ X]. discriminate.
    Qed.
    Lemma t_dependencies o myid : fair o -> tri n (p_dependencies ce rec o d myid m)
      (fun _ => Hm -> ok_dependencies m /\ forall ds e x, assoc "dependencies" m = Some (VMap ds) -> In (e, x) ds -> ~ is_array x -> read x).
    Proof.
      intros F. unfold p_dependencies. destruct (assoc "dependencies" m) as [v|] eqn:Ev; [|apply tri_ret; intros _; split; [intros x X; congruence|discriminate]].
      pose proof (mdoc _ _ Ev) as Dv. eapply tri_bind; [apply tri_ck; [exact Dv|apply (member_crash _ _ Ev)]|]. intros b (k & Ek & ->).
      destruct (existsb (kind_eqb k) [KMap]) eqn:Eb; cbn [negb].
      - destruct (ck_map v k Dv Ek Eb) as [ds ->].
        eapply tri_bind with (Q := fun _ => Forall (fun e => Hm -> dep_shape (snd e) /\ (~ is_array (snd e) -> read (snd e))) (pick (shift o 0) ds)).
        + apply tri_cmap. intros i e Hin. apply in_pick in Hin; [|apply shift_fair; auto]. apply (t_dependency ds); auto. apply shift_fair; auto.
        + intros l H. apply tri_ret. intros Hmm. rewrite Forall_forall in H. split.
          * intros x X. rewrite Ev in X. injection X as <-. exists ds. split; auto. intros e x Hin. apply (H (e, x)); auto. apply in_pick; [apply shift_fair; auto|auto].
          * intros ds' e x [= <-] Hin N. apply (H (e, x)); auto. apply in_pick; [apply shift_fair; auto|auto].
      - apply tri_fail. apply (wrong (ok_dependencies m)); [intros X; apply X|].
        intros _ X. destruct (X _ Ev) as (ds & -> & _). cbn in Ek. injection Ek as <-. discriminate.
    Qed.
    Lemma t_schemas o key ek myid : In key ["oneOf"; "anyOf"; "allOf"] -> fair o -> tri n (p_schemas ce rec o key ek d myid m)
      (fun _ => Hm -> kw m key is_array /\ forall l x, assoc key m = Some (VArr l) -> In x l -> read x).
    Proof.
      intros Hk F. unfold p_schemas. destruct (assoc key m) as [v|] eqn:Ev; [|apply tri_ret; intros _; split; [intros x X; congruence|discriminate]].
      pose proof (mdoc _ _ Ev) as Dv. eapply tri_bind; [apply tri_ck; [exact Dv|apply (member_crash _ _ Ev)]|]. intros b (k & Ek & ->).
      destruct (existsb (kind_eqb k) [KSlice]) eqn:Eb.
      - destruct (kind_slice ce v k Ek Eb) as [l ->].
        eapply tri_weak with (Q := fun _ => Forall (fun x => mod_ x -> read x) l).
        + apply tri_cmap. intros i x Hin. apply tri_child; [apply shift_fair; auto| |eapply elem_size; eauto].
          eapply W_sub; [exact HW|eapply sub_element; eauto]. right. auto.
        + intros ids H Hmm. split; [intros x X; rewrite Ev in X; injection X as <-; eexists; eauto|].
          intros l' x [= <-] Hin. rewrite Forall_forall in H. apply (H x Hin). eapply elem_mod; eauto.
      - apply tri_fail. apply (wrong (kw m key is_array)).
        + intros X. destruct Hk as [<-|[<-|[<-|[]]]]; apply X.
        + intros _ X. destruct (X _ Ev) as [l ->]. cbn in Ek. injection Ek as <-. discriminate.
    Qed.
    Lemma t_items o myid : fair o -> tri n (p_items ce rec o d myid m)
      (fun _ => Hm -> ok_items m /\ (forall l x, assoc "items" m = Some (VArr l) -> In x l -> read x) /\ (forall x, assoc "items" m = Some x -> ~ is_array x -> read x)).
    Proof.
      intros F. unfold p_items. destruct (assoc "items" m) as [v|] eqn:Ev; [|apply tri_ret; intros _; split; [intros x X; congruence|split; discriminate]].
      pose proof (mdoc _ _ Ev) as Dv. eapply tri_bind; [apply tri_ck; [exact Dv|apply (member_crash _ _ Ev)]|]. intros b (k & Ek & ->).
      destruct (existsb (kind_eqb k) [KSlice]) eqn:Eb.
      - destruct (kind_slice ce v k Ek Eb) as [l ->].
        eapply tri_bind with (Q := fun _ => Forall (fun x => mod_ x -> read x) l).
        + apply tri_cmap. intros i x Hin.
          assert (Wx : W d x) by (eapply W_sub; [exact HW|eapply sub_element; eauto; left; auto]). destruct (W_doc _ _ Wx) as [Dx _].
          eapply tri_bind; [apply tri_ck; [exact Dx|]|].
          { intros H. apply (crash False); [tauto|]. intros H'. apply H. eapply elem_mod; eauto. }
          intros b (k' & Ek' & ->). destruct (existsb (kind_eqb k') [KMap; KBool]) eqn:Eb'.
          * apply tri_child; [apply shift_fair; auto|auto|eapply elem_size; eauto].
          * apply tri_fail. apply (HE _ _ Wx). eapply not_map_bool; eauto.
        + intros ids H. apply tri_ret. intros Hmm. split; [intros x X; rewrite Ev in X; injection X as <-; left; eexists; eauto|]. split.
          * intros l' x [= <-] Hin. rewrite Forall_forall in H. apply (H x Hin). eapply elem_mod; eauto.
          * intros x [= <-] N. destruct N. eexists; eauto.
      - eapply tri_bind; [apply tri_ck; [exact Dv|apply (member_crash _ _ Ev)]|]. intros b (k' & Ek' & ->). assert (k' = k) by congruence. subst k'.
        destruct (existsb (kind_eqb k) [KMap; KBool]) eqn:Eb2.
        + assert (NA : ~ is_array v). { intros [l ->]. cbn in Ek. injection Ek as <-. discriminate. }
          eapply tri_bind; [apply tri_child; auto; [|eapply member_size; eauto]|].
          * eapply W_sub; [exact HW|eapply sub_items; eauto].
          * intros id H. apply tri_ret. intros Hmm. split; [|split].
            -- intros x X. rewrite Ev in X. injection X as <-. right. destruct (ck_map_bool v k Dv Ek Eb2) as [[z ->]|[z ->]]; [right|left]; eexists; eauto.
            -- intros l x [= ->]. destruct NA. eexists; eauto.
            -- intros x [= <-] _. apply H. eapply member_mod; eauto.
        + apply tri_fail. apply (wrong (ok_items m)); [intros X; apply X|].
          intros _ X. destruct (X _ Ev) as [[z ->]|[[z ->]|[z ->]]]; cbn in Ek; injection Ek as <-; discriminate.
    Qed.
    Lemma t_natural key : In key ["minLength"; "maxLength"; "minProperties"; "maxProperties"; "minItems"; "maxItems"] ->
      tri n (p_natural ce key m) (fun r => Hm -> ok_natural m key /\ natural_value m key r).
    Proof.
      intros Hk s Hp Hl. pose proof (d_natural ce m Hdoc key s) as D. pose proof (still_natural ce key m s) as ST. destruct (p_natural ce key m s) as [r s'|e s'| |]; try tauto.
      - destruct D as [-> D]. auto.
      - subst s'. split; auto. apply (wrong (ok_natural m key)); auto. intros (_ & X & _). unfold plain_shapes in X. repeat destruct Hk as [<-|Hk]; try tauto. destruct Hk.
    Qed.

    Ltac plain l := eapply tri_bind; [eapply tri_decides; [apply l; try apply Hdoc|auto with still|intros (_ & X & _); unfold plain_shapes in X; tauto|intros []]|intros ? ?].
    Lemma t_keywords o a myid refid : fair o -> pa_draft a = d -> tri n (p_keywords ce rec o a myid refid m)
      (fun _ => Hm -> plain_shapes re same d m /\ schema_shapes re m /\ ((forall ds e y, assoc "definitions" m = Some (VMap ds) -> In (e, y) ds -> read y) -> forall x, subschema d m x -> read x)).
    Proof.
      intros F Ea. unfold p_keywords. rewrite Ea.
      eapply tri_bind; [eapply tri_decides; [apply d_type; apply Hdoc|auto with still|intros (_ & X & _); apply X|intros X; right; exact X]|intros types A1].
      eapply tri_bind; [apply t_properties; apply shift_fair; auto|intros props A2].
      eapply tri_bind; [apply t_additional; [left; auto|apply shift_fair; auto]|intros addp A3].
      eapply tri_bind; [apply t_patternProperties; apply shift_fair; auto|intros pats A4].
      eapply tri_bind; [apply t_propertyNames; apply shift_fair; auto|intros pn A5].
      eapply tri_bind; [apply t_dependencies; apply shift_fair; auto|intros deps A6].
      eapply tri_bind; [apply t_items; apply shift_fair; auto|intros items A7].
      eapply tri_bind; [apply t_additional; [right; left; auto|apply shift_fair; auto]|intros addi A8].
      eapply tri_bind; [eapply tri_decides; [apply d_multipleOf; apply Hdoc|auto with still|intros (_ & X & _); apply X|intros []]|intros mu A9].
      eapply tri_bind; [eapply tri_decides; [apply d_bound; apply Hdoc|auto with still|intros (_ & X & _); split; apply X|intros []]|intros mi A10].
      eapply tri_bind; [eapply tri_decides; [apply d_bound; apply Hdoc|auto with still|intros (_ & X & _); split; apply X|intros []]|intros ma A11].
      eapply tri_bind; [apply t_natural; cbn; tauto|intros minl A12].
      eapply tri_bind; [apply t_natural; cbn; tauto|intros maxl A13].
      eapply tri_bind; [eapply tri_decides; [apply (d_le ce m Hdoc "minLength" "maxLength"); [intros H; apply A12; exact H|intros H; apply A13; exact H]|auto with still|intros (_ & X & _); apply X|intros []]|intros u1 A14].
      eapply tri_bind; [eapply tri_decides; [apply d_pattern; apply Hdoc|auto with still|intros (_ & X & _); apply X|intros []]|intros pt A15].
      eapply tri_bind; [eapply tri_decides; [apply d_format; apply Hdoc|auto with still|intros (_ & X & _); apply X|intros []]|intros fo A16].
      eapply tri_bind; [apply t_natural; cbn; tauto|intros minp A17].
      eapply tri_bind; [apply t_natural; cbn; tauto|intros maxp A18].
      eapply tri_bind; [eapply tri_decides; [apply (d_le ce m Hdoc "minProperties" "maxProperties"); [intros H; apply A17; exact H|intros H; apply A18; exact H]|auto with still|intros (_ & X & _); apply X|intros []]|intros u2 A19].
      eapply tri_bind; [eapply tri_decides; [apply d_required; apply Hdoc|auto with still|intros (_ & X & _); apply X|intros []]|intros rq A20].
      eapply tri_bind; [apply t_natural; cbn; tauto|intros mini A21].
      eapply tri_bind; [apply t_natural; cbn; tauto|intros maxi A22].
      eapply tri_bind; [eapply tri_decides; [apply d_uniqueItems; apply Hdoc|auto with still|intros (_ & X & _); apply X|intros []]|intros un A23].
      eapply tri_bind; [apply t_contains; apply shift_fair; auto|intros co A24].
      eapply tri_bind; [eapply tri_decides; [apply d_const; apply Hdoc|auto with still|intros (_ & X & _); apply X|intros []]|intros cs A25].
      eapply tri_bind; [eapply tri_decides; [apply d_enum; apply Hdoc|auto with still|intros (_ & X & _); apply X|intros []]|intros en A26].
      eapply tri_bind; [apply t_schemas; [cbn; tauto|apply shift_fair; auto]|intros s1 A27].
      eapply tri_bind; [apply t_schemas; [cbn; tauto|apply shift_fair; auto]|intros s2 A28].
      eapply tri_bind; [apply t_schemas; [cbn; tauto|apply shift_fair; auto]|intros s3 A29].
      eapply tri_bind; [apply t_schema; [intros x Ex; apply sub_not; exact Ex|apply shift_fair; auto]|intros nt A30].
      eapply tri_bind; [apply t_cond; [cbn; tauto|apply shift_fair; auto]|intros c1 A31].
      eapply tri_bind; [apply t_cond; [cbn; tauto|apply shift_fair; auto]|intros c2 A32].
      eapply tri_bind; [apply t_cond; [cbn; tauto|apply shift_fair; auto]|intros c3 A33].
      apply tri_ret. intros H.
      specialize (A1 H). specialize (A2 H). specialize (A3 H). specialize (A4 H). specialize (A5 H). specialize (A6 H). specialize (A7 H). specialize (A8 H). specialize (A9 H).
      specialize (A10 H). specialize (A11 H). specialize (A12 H). specialize (A13 H). specialize (A14 H). specialize (A15 H). specialize (A16 H). specialize (A17 H). specialize (A18 H). specialize (A19 H).
      specialize (A20 H). specialize (A21 H). specialize (A22 H). specialize (A23 H). specialize (A24 H). specialize (A25 H). specialize (A26 H). specialize (A27 H). specialize (A28 H). specialize (A29 H).
      specialize (A30 H). specialize (A31 H). specialize (A32 H). specialize (A33 H).
      split; [|split].
      - unfold plain_shapes. repeat match goal with |- _ /\ _ => apply conj end; try assumption; try apply A10; try apply A11; try apply A12; try apply A13; try apply A17; try apply A18; try apply A21; try apply A22.
      - unfold schema_shapes. repeat match goal with |- _ /\ _ => apply conj end; try apply A2; try apply A3; try apply A4; try apply A6; try apply A7; try apply A8; try apply A27; try apply A28; try apply A29.
      - intros N x S. destruct S as [ds e x E Hin|k ms e x Hk E Hin|k x Hk E Nb|ds e x E Hin Na|x E Na|k l x Hk E Hin|k x Hd6 Hk E|k x Hd7 Hk E|x E].
        + eapply N; eauto.
        + destruct Hk as [<-|[<-|[]]]; [eapply A2|eapply A4]; eauto.
        + destruct Hk as [<-|[<-|[]]]; [apply A3|apply A8]; auto.
        + eapply A6; eauto.
        + apply A7; auto.
        + destruct Hk as [<-|[<-|[<-|[<-|[]]]]]; [destruct A7 as (_ & A7 & _); eapply A7|eapply A27|eapply A28|eapply A29]; eauto.
        + destruct Hk as [<-|[<-|[]]]; [apply A24|apply A5]; auto.
        + destruct Hk as [<-|[<-|[<-|[]]]]; [apply A31|apply A32|apply A33]; auto.
        + apply A30; auto.
    Qed.
  End Node.

  Lemma filter_some {A} (f g : A -> bool) l x : (forall y, g y = true -> f y = true) -> In x l -> f x = true -> g x = false ->
    length (filter g l) < length (filter f l).
  Proof.
    intros H Hin Hf Hg. assert (LE : forall l, length (filter g l) <= length (filter f l)).
    { clear - H. induction l as [|y l IH]; cbn [filter]; auto. destruct (g y) eqn:E; [rewrite (H _ E); cbn [length]; lia|]. destruct (f y); cbn [length]; lia. }
    induction l as [|y l IH]; [destruct Hin|]. cbn [filter]. destruct Hin as [->|Hin].
    - rewrite Hf, Hg. cbn [length]. specialize (LE l). lia.
    - specialize (IH Hin). destruct (g y) eqn:E; [rewrite (H _ E); cbn [length]; lia|]. destruct (f y); cbn [length]; lia.
  Qed.
  Lemma left_add s r id h src p : In r R -> assoc r (st_refs s) = None ->
    left (CState h src p (match assoc r (st_refs s) with Some _ => st_refs s | None => st_refs s ++ [(r, id)] end)) < left s.
  Proof.
    intros Hin En. unfold left. cbn [st_refs]. rewrite En. apply (filter_some _ _ R r); auto.
    - intros y. destruct (assoc y (st_refs s)) eqn:E; auto. rewrite (assoc_snoc_old _ _ _ _ _ E). auto.
    - rewrite En. auto.
    - rewrite assoc_snoc_new; auto.
  Qed.

  Lemma left_le s r id h src p :
    left (CState h src p (match assoc r (st_refs s) with Some _ => st_refs s | None => st_refs s ++ [(r, id)] end)) <= left s.
  Proof.
    unfold left. cbn [st_refs]. destruct (assoc r (st_refs s)); auto. clear. induction R as [|y l IH]; cbn [filter]; auto.
    destruct (assoc y (st_refs s)) eqn:E; [rewrite (assoc_snoc_old _ _ _ _ _ E); auto|]. destruct (assoc y (st_refs s ++ _)); cbn [length]; lia.
  Qed.

  (** The recursion, with fuel for every reference not yet followed. *)
  Definition enough (n : nat) (v : value) : nat := n * S M + vsize v.
  Lemma t_node k (IH : forall n o a id v, fair o -> W (pa_draft a) v -> EN \/ enough n v < k -> tri n (parseSchema ce k o a id v) (fun _ => mod_ v -> read_ok re url (pa_draft a) v)) :
    forall n o a id v, fair o -> W (pa_draft a) v -> EN \/ enough n v < S k ->
      tri n (parseSchemaNode ce (parseSchema ce k) o a id v) (fun _ => mod_ v -> read_ok re url (pa_draft a) v).
  Proof.
    intros n o a id v F Wv Hk. unfold parseSchemaNode. set (d := pa_draft a) in *. destruct (W_doc _ _ Wv) as [Dv Mv].
    assert (CR : ~ mod_ v -> EP) by (intros N; apply (HP _ _ Wv); intros [X _]; auto).
    eapply tri_bind with (Q := fun b => (b = true -> exists x, v = VBool x /\ since6 d) /\ (b = false -> since6 d -> ~ is_boolean v)).
    { destruct (draft_ge6 d) eqn:Eg.
      - apply since6_ge6 in Eg. eapply tri_weak; [apply tri_ck; [exact Dv|exact CR]|]. intros b (kd & Ek & ->). split.
        + intros H. destruct (kind_bool ce v kd Ek H) as [x ->]. eauto.
        + intros H _ [x ->]. cbn in Ek. injection Ek as <-. discriminate.
      - apply tri_ret. split; [discriminate|]. intros _ H. apply since6_ge6 in H. congruence. }
    intros b [Hb1 Hb2]. destruct b.
    { destruct (Hb1 eq_refl) as (x & -> & H6). eapply tri_weak; [apply tri_store|]. intros [] _ _. constructor. auto. }
    eapply tri_bind; [apply tri_ck; [exact Dv|exact CR]|]. intros b (kd & Ek & ->). destruct (existsb (kind_eqb kd) [KMap]) eqn:Eb; cbn [negb].
    2: { apply tri_fail. apply (HE _ _ Wv). intros [_ X]. destruct v as [|b|t|f|t|l|m|m]; try exact X.
         - apply (Hb2 eq_refl X). eexists; eauto.
         - cbn in Ek. injection Ek as <-. discriminate. }
    destruct (ck_map v kd Dv Ek Eb) as [m ->].
    assert (HR : forall o a id x, fair o -> W (pa_draft a) x -> EN \/ vsize x < vsize (VMap m) -> tri n (parseSchema ce k o a id x) (fun _ => mod_ x -> read_ok re url (pa_draft a) x)).
    { intros o' a' id' x F' W' Hx. apply IH; auto. unfold enough in *. destruct Hk; [left; auto|]. destruct Hx; [left; auto|right; lia]. }
    assert (DEC : forall A (c : comp A) P bad, decides (mod_ (VMap m)) c P bad -> still c -> (shapes re url same d m -> P) -> (bad -> panic_shape m) -> tri n c (fun _ => mod_ (VMap m) -> P)).
    { intros. eapply tri_decides; eauto. }
    eapply tri_bind; [eapply DEC; [apply d_id; [exact Dv|exact Hinh|reflexivity]|auto with still|intros X; apply X|intros []]|]. intros myid A1.
    eapply tri_bind; [apply (t_definitions (parseSchema ce k) n (vsize (VMap m)) HR d m Wv (or_intror (Nat.le_refl _))); apply shift_fair; auto|]. intros u0 A2.
    eapply tri_bind; [eapply DEC; [apply d_string_only; exact Dv|auto with still|intros X; apply X|intros []]|]. intros u1 A3.
    eapply tri_bind; [eapply DEC; [apply d_string_only; exact Dv|auto with still|intros X; apply X|intros []]|]. intros u2 A4.
    eapply tri_bind; [eapply (DEC _ _ (kw m "$ref" is_string)); [apply d_string_only; exact Dv|auto with still| |intros []]|].
    { intros X x Ex. destruct X as [(_ & _ & _ & _ & X) _]. destruct (X _ Ex) as (s & -> & _). eexists; eauto. }
    intros u3 A5.
    assert (KEY : forall refid, tri n (p_keywords ce (parseSchema ce k) o a myid refid m) (fun _ => mod_ (VMap m) -> plain_shapes re same d m /\ schema_shapes re m /\
              ((forall ds e y, assoc "definitions" m = Some (VMap ds) -> In (e, y) ds -> read_ok re url d y) -> forall x, subschema d m x -> read_ok re url d x))).
    { intros refid. apply (t_keywords (parseSchema ce k) n (vsize (VMap m)) HR d m Wv (or_intror (Nat.le_refl _))); auto. }
    assert (NOREF : (forall k, assoc "$ref" m <> Some (VStr k)) ->
       tri n (let! nd := p_keywords ce (parseSchema ce k) o a myid None m in store id nd) (fun _ => mod_ (VMap m) -> read_ok re url d (VMap m))).
    { intros NR. eapply tri_bind; [apply KEY|]. intros nd A6. eapply tri_weak; [apply tri_store|]. intros [] _ Hmm.
      destruct (A6 Hmm) as (B1 & B2 & B3). apply read_object; [|apply B3; apply A2; auto]. split; [|split; auto]. split; [auto|]. split; [apply A2; auto|]. split; [auto|]. split; [auto|].
      intros x Ex. destruct (A5 Hmm _ Ex) as [s ->]. destruct (NR _ Ex). }
    destruct (assoc "$ref" m) as [v|] eqn:Er; [|apply NOREF; discriminate].
    destruct v as [|b|t|f|t|l|m'|m']; try (apply NOREF; discriminate). clear NOREF.
    destruct (u_parse ce t) as [r|] eqn:Eu.
    2: { apply tri_fail. apply (HE _ _ Wv). intros [_ X]. destruct X as [(_ & _ & _ & _ & X) _]. destruct (X _ Er) as (s & [= <-] & X'). auto. }
    assert (READ : mod_ (VMap m) -> read_ok re url d (VMap m)).
    { intros Hmm. eapply read_ref; [|exact Er|apply A2; auto]. split; [auto|]. split; [apply A2; auto|]. split; [auto|]. split; [auto|].
      intros x Ex. rewrite Er in Ex. injection Ex as <-. exists t. split; auto. congruence. }
    destruct (W_ref _ _ _ _ Wv Er Eu) as [Hr HG].
    intros s Hp Hl. unfold cbind at 1, refs_get at 1. destruct (assoc r (st_refs s)) as [rid|] eqn:Ehit.
    - revert s Hp Hl Ehit. intros s Hp Hl _. revert s Hp Hl. apply tri_bind with (Q := fun _ => True); [eapply tri_weak; [apply KEY|auto]|]. intros nd _. eapply tri_weak; [apply tri_store|auto].
    - (* the reference is new: one fewer is left *)
      assert (T : tri n (fun s1 => match assoc r (st_refs s1) with Some _ => COk 0 s1 | None => parseReference ce (parseSchema ce k) (shift o 16) d myid r s1 end) (fun _ => True)).
      { intros s1 Hp1 Hl1. destruct (assoc r (st_refs s1)) eqn:Eh1; [auto|]. unfold parseReference.
        unfold cbind at 1, alloc at 1. unfold cbind at 1, refs_add at 1. cbn [st_heap st_src st_pool st_refs].
        match goal with |- context [CState ?h ?src ?p ?rf] => set (s2 := CState h src p rf) end.
        assert (Hp2 : PI (st_pool s2)) by exact Hp1.
        assert (LN : exists n', n' <= n /\ left s2 <= n' /\ (EN \/ n = S n')).
        { destruct Hr as [He|Hr].
          - exists n. split; auto. split; [|left; auto]. eapply Nat.le_trans; [apply left_le|exact Hl1].
          - assert (Hl2 : left s2 < left s1) by (apply left_add; auto). destruct n as [|n']; [lia|]. exists n'. split; [lia|]. split; [lia|right; auto]. }
        destruct LN as (n' & Ln & Hl3 & HN).
        match goal with |- match ?c s2 with _ => _ end => cut (tri n' c (fun _ => True)) end.
        { intros T. specialize (T s2 Hp2 Hl3). match goal with |- match ?c with _ => _ end => destruct c as [x s3|e s3| |] end; auto. destruct T as (T1 & T2 & _). split; auto. split; auto. lia. }
        eapply tri_bind; [apply HG; apply shift_fair, shift_fair; auto|]. intros e We. destruct (W_doc _ _ We) as [De Me].
        eapply tri_bind; [apply tri_ck; [exact De|]|].
        { intros N. apply (HP _ _ We). intros [X _]. auto. }
        intros b (kd' & Ek' & ->). destruct (existsb (kind_eqb kd') [KMap; KBool]) eqn:Eb'; cbn [negb].
        - eapply tri_bind with (Q := fun _ => True).
          + match goal with |- tri _ (fun s' => COk tt (?g s')) _ => idtac | |- tri _ ?c _ => idtac end.
            apply (tri_heap n' (fun _ => tt) (fun s' => CState (st_heap s') (set_nth (length (st_heap s1)) (match sp_draft e with Some x => x | None => d end, sp_doc e) (st_src s')) (st_pool s') (st_refs s'))); auto.
          + intros [] _. eapply tri_bind; [apply IH|].
            * repeat apply shift_fair; auto.
            * exact We.
            * destruct HN as [He| ->]; [left; auto|]. destruct Hk as [He|Hk]; [left; auto|]. destruct Me as [He|Me]; [left; auto|]. right. unfold enough in *. cbn in Hk. lia.
            * intros [] _. apply tri_ret. auto.
        - apply tri_fail. apply (HE _ _ We). eapply not_map_bool; eauto. }
      pose proof (tri_bind n _ (fun rid => store id (ref_node (pa_prop a) rid)) _ (fun _ => mod_ (VMap m) -> read_ok re url d (VMap m)) T) as T2.
      specialize (T2 (fun rid _ => tri_weak n _ _ _ (tri_store n id _) (fun _ _ => READ)) s Hp Hl).
      unfold cbind in T2 |- *. rewrite Ehit in T2. exact T2.
  Qed.
  Theorem parseSchema_total k : forall n o a id v, fair o -> W (pa_draft a) v -> EN \/ enough n v < k ->
    tri n (parseSchema ce k o a id v) (fun _ => mod_ v -> read_ok re url (pa_draft a) v).
  Proof.
    induction k as [|k IH]; intros n o a id v F Wv Hk.
    - destruct Hk as [He|Hk]; [|lia]. intros s _ _. exact He.
    - cbn [parseSchema]. apply t_node; auto.
  Qed.

  Theorem parse_total fuel o docref d doc p : fair o -> PI p -> W d doc -> EN \/ length R * S M + vsize doc < fuel ->
    match parse ce fuel o docref d doc (CState [] [] p []) with
    | COk _ s' => PI (st_pool s') /\ (mod_ doc -> read_ok re url d doc)
    | CErr _ s' => ER /\ PI (st_pool s')
    | CPanic => EP
    | CNoFuel => EN
    end.
  Proof.
    intros F Hp Wd Hf.
    assert (T : tri (length R) (parse ce fuel o docref d doc) (fun _ => mod_ doc -> read_ok re url d doc)).
    { unfold parse. eapply tri_bind; [apply tri_alloc|]. intros id _. eapply tri_bind.
      - apply (parseSchema_total fuel (length R) o (PArgs STRING_ROOT_SCHEMA_PROPERTY d true docref docref)); auto.
      - intros [] H. apply tri_ret. exact H. }
    assert (HL : left (CState [] [] p []) <= length R). { unfold left. clear. induction R as [|r l IH]; cbn [filter st_refs assoc length] in *; lia. }
    specialize (T (CState [] [] p []) Hp HL). destruct (parse _ _ _ _ _ _ _) as [x s'|e s'| |]; auto. tauto.
  Qed.
End Total.
