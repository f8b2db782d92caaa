(** What compilation leaves in the heap: every cell holds the node its source
    document describes. *)
From Verif Require Export PoolFacts ModelCompile Codec ValidatePanic.
Open Scope nat_scope.

Lemma Forall2_impl {A B} (P Q : A -> B -> Prop) l l' :
  (forall a b, P a b -> Q a b) -> Forall2 P l l' -> Forall2 Q l l'.
Proof. intros H. induction 1; constructor; auto. Qed.

Lemma in_slice l x : isStringInSlice l x = true <-> In x l.
Proof.
  induction l as [|y l IH]; simpl; [split; [discriminate|tauto]|].
  destruct (String.eqb_spec y x); [tauto|]. rewrite IH. intuition congruence.
Qed.

(** A document the JSON decoder can produce. *)
Definition doc_ok (v : value) : Prop := std v /\ plain v = true.

Lemma doc_ok_arr l : doc_ok (VArr l) -> Forall doc_ok l.
Proof.
  intros [H P]. inversion H; subst. simpl in P. rewrite forallb_forall in P. rewrite Forall_forall in *.
  intros x Hx. split; auto.
Qed.
Lemma doc_ok_map m : doc_ok (VMap m) -> NoDup (map fst m) /\ Forall (fun e => doc_ok (snd e)) m.
Proof.
  intros [H P]. inversion H as [| | | | | |? N F]; subst. simpl in P. rewrite forallb_forall in P. split; auto. rewrite Forall_forall in *.
  intros x Hx. split; [apply F; auto|apply P; auto].
Qed.
Lemma doc_ok_member m k x : doc_ok (VMap m) -> assoc k m = Some x -> doc_ok x.
Proof.
  intros H E. apply assoc_In in E. apply doc_ok_map in H. destruct H as [_ H]. rewrite Forall_forall in H. apply (H _ E).
Qed.

(** Properties of the drafts, the documents and the pool in play that compiling
    is to keep. *)
Record policy := Policy {
  py_draft :> draft -> Prop;
  py_doc : value -> Prop;
  py_pool : pool -> Prop;
  py_arr : forall l, py_doc (VArr l) -> Forall py_doc l;
  py_map : forall m, py_doc (VMap m) -> Forall (fun e => py_doc (snd e)) m
}.
Definition good (pd : policy) (v : value) : Prop := doc_ok v /\ py_doc pd v.
Lemma good_arr pd l : good pd (VArr l) -> Forall (good pd) l.
Proof.
  intros [H P]. apply doc_ok_arr in H. apply py_arr in P. rewrite Forall_forall in *. intros x Hx. split; auto.
Qed.
Lemma good_map pd m : good pd (VMap m) -> NoDup (map fst m) /\ Forall (fun e => good pd (snd e)) m.
Proof.
  intros [H P]. apply doc_ok_map in H. destruct H as [N H]. split; auto. apply py_map in P. rewrite Forall_forall in *. intros x Hx. split; auto.
Qed.
Lemma good_member pd m k x : good pd (VMap m) -> assoc k m = Some x -> good pd x.
Proof.
  intros H E. apply assoc_In in E. apply good_map in H. destruct H as [_ H]. rewrite Forall_forall in H. apply (H _ E).
Qed.

(** ** The node a schema object describes *)
Section Describes.
  Variable lim : Z.
  Variable re_ok : string -> bool.
  (** [kid id d x]: cell id stands for the schema x read under draft d.
      [named id k]: cell id is called k. *)
  Variable kid : nat -> draft -> value -> Prop.
  Variable named : nat -> string -> Prop.
  Variable d : draft.
  Variable m : list (string * value).

  Definition type_ok (ts : list string) : Prop :=
    match assoc "type" m with
    | None => ts = []
    | Some (VStr t) => ts = [t]
    | Some (VArr l) => l = map VStr ts
    | _ => False
    end /\ Forall (fun t => In t JSON_TYPES) ts.
  Definition props_ok (ids : list nat) : Prop :=
    match assoc "properties" m with
    | None => ids = []
    | Some (VMap ps) => exists es, Permutation ps es /\
        Forall2 (fun e id => kid id d (snd e) /\ named id (fst e)) es ids
    | _ => False
    end.
  Definition addl_ok (key : string) (r : option addl) : Prop :=
    match assoc key m with
    | None => r = None
    | Some (VBool b) => r = Some (AddlBool b)
    | Some x => exists id, r = Some (AddlSchema id) /\ kid id d x
    end.
  Definition pats_ok (l : list (string * nat)) : Prop :=
    match assoc "patternProperties" m with
    | None => l = []
    | Some (VMap ps) => exists es, Permutation ps es /\
        Forall2 (fun e r => fst r = fst e /\ re_ok (fst e) = true /\ kid (snd r) d (snd e)) es l
    | _ => False
    end.
  Definition opt_ok (key : string) (r : option nat) : Prop :=
    match assoc key m with
    | None => r = None
    | Some x => exists id, r = Some id /\ kid id d x
    end.
  Definition gated (b : bool) (r : option nat) (P : Prop) : Prop := if b then P else r = None.
  Definition dep_ok (e : string * value) (l : list (string * dep)) : Prop :=
    match snd e with
    | VArr ks => exists names, ks = map VStr names /\
        l = match names with [] => [] | _ => [(fst e, DepKeys names)] end
    | x => exists id, l = [(fst e, DepSchema id)] /\ kid id d x
    end.
  Definition deps_ok (l : list (string * dep)) : Prop :=
    match assoc "dependencies" m with
    | None => l = []
    | Some (VMap ds) => exists es ls, Permutation ds es /\ Forall2 dep_ok es ls /\ l = concat ls
    | _ => False
    end.
  Definition items_ok (ids : list nat) (single : bool) : Prop :=
    match assoc "items" m with
    | None => ids = [] /\ single = false
    | Some (VArr l) => single = false /\ Forall2 (fun x id => kid id d x) l ids
    | Some x => single = true /\ exists id, ids = [id] /\ kid id d x
    end.
  Definition mult_ok (r : option Q) : Prop :=
    match assoc "multipleOf" m with
    | None => r = None
    | Some v => exists q, r = Some q /\ mustBeNumber lim v = Some q /\ (0 < q)%Q
    end.
  Definition bound_ok (key xkey : string) (r1 r2 : option Q) : Prop :=
    exists incl,
      match assoc key m with
      | None => incl = None
      | Some v => exists q, mustBeNumber lim v = Some q /\ incl = Some q
      end /\
      match assoc xkey m with
      | None => r1 = incl /\ r2 = None
      | Some (VBool b) => (d = Draft4 \/ d = Hybrid) /\ exists q, incl = Some q /\
                          if b then r1 = None /\ r2 = Some q else r1 = Some q /\ r2 = None
      | Some (VNum s) => d <> Draft4 /\ r1 = incl /\ r2 = rat_of lim s
      | Some _ => False
      end.
  Definition nat_ok (key : string) (r : option Z) : Prop :=
    match assoc key m with
    | None => r = None
    | Some v => exists z, mustBeInteger lim v = Some z /\ (0 <= z)%Z /\ r = Some z
    end.
  Definition pattern_ok (r : option string) : Prop :=
    match assoc "pattern" m with
    | None => r = None
    | Some (VStr p) => re_ok p = true /\ r = Some p
    | Some _ => False
    end.
  Definition format_ok (r : string) : Prop :=
    match assoc "format" m with
    | None => r = ""
    | Some (VStr f) => r = f
    | Some _ => False
    end.
  Definition required_ok (r : list string) : Prop :=
    match assoc "required" m with
    | None => r = []
    | Some (VArr l) => l = map VStr r
    | Some _ => False
    end.
  Definition unique_ok (r : bool) : Prop :=
    match assoc "uniqueItems" m with
    | None => r = false
    | Some (VBool b) => r = b
    | Some _ => False
    end.
  Definition const_ok (r : option string) : Prop :=
    if draft_ge6 d then
      match assoc "const" m with
      | None => r = None
      | Some x => r <> None /\ r = marshalWithoutNumber x
      end
    else r = None.
  Definition enum_ok (r : list string) : Prop :=
    match assoc "enum" m with
    | None => r = []
    | Some (VArr l) => map marshalWithoutNumber l = map Some r
    | Some _ => False
    end.
  Definition schemas_ok (key : string) (ids : list nat) : Prop :=
    match assoc key m with
    | None => ids = []
    | Some (VArr l) => Forall2 (fun x id => kid id d x) l ids
    | Some _ => False
    end.

  Definition describes (n : node) : Prop :=
    type_ok (n_types n) /\ props_ok (n_props n) /\
    addl_ok "additionalProperties" (n_additionalProperties n) /\ pats_ok (n_patternProperties n) /\
    gated (draft_ge6 d) (n_propertyNames n) (opt_ok "propertyNames" (n_propertyNames n)) /\
    deps_ok (n_dependencies n) /\ items_ok (n_items n) (n_items_single n) /\
    addl_ok "additionalItems" (n_additionalItems n) /\ mult_ok (n_multipleOf n) /\
    bound_ok "minimum" "exclusiveMinimum" (n_minimum n) (n_exclusiveMinimum n) /\
    bound_ok "maximum" "exclusiveMaximum" (n_maximum n) (n_exclusiveMaximum n) /\
    nat_ok "minLength" (n_minLength n) /\ nat_ok "maxLength" (n_maxLength n) /\
    pattern_ok (n_pattern n) /\ format_ok (n_format n) /\
    nat_ok "minProperties" (n_minProperties n) /\ nat_ok "maxProperties" (n_maxProperties n) /\
    required_ok (n_required n) /\
    nat_ok "minItems" (n_minItems n) /\ nat_ok "maxItems" (n_maxItems n) /\ unique_ok (n_uniqueItems n) /\
    gated (draft_ge6 d) (n_contains n) (opt_ok "contains" (n_contains n)) /\
    const_ok (n_const n) /\ enum_ok (n_enum n) /\
    schemas_ok "oneOf" (n_oneOf n) /\ schemas_ok "anyOf" (n_anyOf n) /\ schemas_ok "allOf" (n_allOf n) /\
    opt_ok "not" (n_not n) /\
    gated (draft_ge7 d) (n_if n) (opt_ok "if" (n_if n)) /\
    gated (draft_ge7 d) (n_then n) (opt_ok "then" (n_then n)) /\
    gated (draft_ge7 d) (n_else n) (opt_ok "else" (n_else n)).
End Describes.

(** More cells, more names: still described. *)
Section Mono.
  Variable lim : Z.
  Variable re_ok : string -> bool.
  Variables kid kid' : nat -> draft -> value -> Prop.
  Variables named named' : nat -> string -> Prop.
  Hypothesis Hk : forall id d x, kid id d x -> kid' id d x.
  Hypothesis Hn : forall id k, named id k -> named' id k.
  Variable d : draft.
  Variable m : list (string * value).

  Lemma props_mono ids : props_ok kid named d m ids -> props_ok kid' named' d m ids.
  Proof.
    unfold props_ok. destruct (assoc _ _) as [[]|]; auto. intros (es & HP & HF). exists es. split; auto.
    eapply Forall2_impl; [|exact HF]. intros a b [H1 H2]. auto.
  Qed.
  Lemma addl_mono key r : addl_ok kid d m key r -> addl_ok kid' d m key r.
  Proof. unfold addl_ok. destruct (assoc _ _) as [[]|]; auto; intros (id & E & H); exists id; auto. Qed.
  Lemma pats_mono l : pats_ok re_ok kid d m l -> pats_ok re_ok kid' d m l.
  Proof.
    unfold pats_ok. destruct (assoc _ _) as [[]|]; auto. intros (es & HP & HF). exists es. split; auto.
    eapply Forall2_impl; [|exact HF]. intros a b (H1 & H2 & H3). auto.
  Qed.
  Lemma opt_mono key r : opt_ok kid d m key r -> opt_ok kid' d m key r.
  Proof. unfold opt_ok. destruct (assoc _ _); auto; intros (id & E & H); exists id; auto. Qed.
  Lemma gated_mono b r (P Q : Prop) : (P -> Q) -> gated b r P -> gated b r Q.
  Proof. unfold gated. destruct b; auto. Qed.
  Lemma dep_mono e l : dep_ok kid d e l -> dep_ok kid' d e l.
  Proof. unfold dep_ok. destruct (snd e); auto; intros (id & E & H); exists id; auto. Qed.
  Lemma deps_mono l : deps_ok kid d m l -> deps_ok kid' d m l.
  Proof.
    unfold deps_ok. destruct (assoc _ _) as [[]|]; auto. intros (es & ls & HP & HF & E). exists es, ls. split; [|split]; auto.
    eapply Forall2_impl; [|exact HF]. intros a b. apply dep_mono.
  Qed.
  Lemma items_mono ids b : items_ok kid d m ids b -> items_ok kid' d m ids b.
  Proof.
    unfold items_ok. destruct (assoc _ _) as [[]|]; auto; intros [E H]; split; auto; try (destruct H as (id & E1 & E2); exists id; auto; fail).
    eapply Forall2_impl; [|exact H]. auto.
  Qed.
  Lemma schemas_mono key ids : schemas_ok kid d m key ids -> schemas_ok kid' d m key ids.
  Proof. unfold schemas_ok. destruct (assoc _ _) as [[]|]; auto. intros HF. eapply Forall2_impl; [|exact HF]. auto. Qed.
  Lemma gopt_mono b key r : gated b r (opt_ok kid d m key r) -> gated b r (opt_ok kid' d m key r).
  Proof. apply gated_mono, opt_mono. Qed.
  Lemma describes_mono n : describes lim re_ok kid named d m n -> describes lim re_ok kid' named' d m n.
  Proof.
    unfold describes. intros H. repeat (destruct H as [? H]).
    repeat match goal with |- _ /\ _ => apply conj end;
      solve [assumption | eauto using props_mono, addl_mono, pats_mono, deps_mono, items_mono, schemas_mono, opt_mono, gopt_mono].
  Qed.
End Mono.

(** ** States *)
Definition pool_ok (pd : draft -> Prop) (p : pool) : Prop :=
  forall r e, assoc r p = Some e -> doc_ok (sp_doc e) /\ forall x, sp_draft e = Some x -> pd x.
Section State.
  Variable ce : cenv.
  Notation lim := (e_ratlim (c_go ce)).
  Notation re_ok := (e_re_ok (c_go ce)).

  Definition kid (s : cstate) (id : nat) (d : draft) (x : value) : Prop := nth_error (st_src s) id = Some (d, x).
  Definition named (s : cstate) (id : nat) (k : string) : Prop :=
    exists n, nth_error (st_heap s) id = Some n /\ n_property n = k.

  (** The node of a cell compiled from the schema x under draft d. *)
  Definition node_for (s : cstate) (n : node) (d : draft) (x : value) : Prop :=
    node_ok (st_heap s) n /\
    match x with
    | VBool b => draft_ge6 d = true /\ n_pass n = Some b
    | VMap m =>
        n_pass n = None /\
        match assoc "$ref" m with
        | Some (VStr k) => exists r rid, u_parse ce k = Some r /\ assoc r (st_refs s) = Some rid /\ n_ref n = Some rid
        | Some _ => False
        | None => n_ref n = None /\ describes lim re_ok (kid s) (named s) d m n
        end
    | _ => False
    end.
  Definition cell (s : cstate) (id : nat) : Prop :=
    exists n d x, nth_error (st_heap s) id = Some n /\ kid s id d x /\ node_for s n d x.

  (** [met r d x]: r was resolved to the schema x, to be read under d. *)
  Variable pd : policy.
  Definition met (p : pool) (r : string) (d : draft) (x : value) : Prop :=
    exists o s dsp s' d0, fair o /\ py_pool pd (st_pool s) /\ GetDocument ce o r s = COk dsp s' /\ pool_le (st_pool s') p /\
      pd d0 /\ x = sp_doc dsp /\ d = match sp_draft dsp with Some y => y | None => d0 end.

  Definition wf (s : cstate) : Prop :=
    length (st_src s) = length (st_heap s) /\ py_pool pd (st_pool s) /\
    (forall id d x, kid s id d x -> good pd x /\ pd d) /\
    (forall r rid, assoc r (st_refs s) = Some rid -> exists d x, kid s rid d x /\ met (st_pool s) r d x).

  (** The state only grows; cells keep their names. *)
  Definition le (s s' : cstate) : Prop :=
    (forall id d x, kid s id d x -> kid s' id d x) /\
    length (st_heap s) <= length (st_heap s') /\
    (forall id k, named s id k -> named s' id k) /\
    (forall r rid, assoc r (st_refs s) = Some rid -> assoc r (st_refs s') = Some rid) /\
    pool_le (st_pool s) (st_pool s').

  Lemma le_refl s : le s s.
  Proof. repeat split; auto. Qed.
  Lemma le_trans a b c : le a b -> le b c -> le a c.
  Proof.
    intros (A1 & A2 & A3 & A4 & A5) (B1 & B2 & B3 & B4 & B5). split; [auto|split; [lia|split; [auto|split; [auto|]]]].
    eapply pool_le_trans; eauto.
  Qed.

  Lemma node_ok_mono h h' n : length h <= length h' -> node_ok h n -> node_ok h' n.
  Proof.
    intros L (H1 & H2 & H3). split; [|split; auto]. eapply Forall_impl; [|exact H1]. simpl. intros. lia.
  Qed.
  Lemma node_for_mono s s' n d x : le s s' -> node_for s n d x -> node_for s' n d x.
  Proof.
    intros (L1 & L2 & L3 & L4 & L5) [H1 H2]. split; [eapply node_ok_mono; eauto|].
    destruct x; auto. destruct H2 as [H2 H3]. split; auto. destruct (assoc "$ref" m) as [[]|]; auto.
    - destruct H3 as (r & rid & E1 & E2 & E3). exists r, rid. auto.
    - destruct H3 as [E H3]. split; auto. eapply describes_mono; [| |exact H3]; auto.
  Qed.

  (** Growth that leaves every old cell but [id] alone and makes proper cells. *)
  Definition grows (id : option nat) (s s' : cstate) : Prop :=
    le s s' /\
    (forall j, j < length (st_heap s) -> id <> Some j -> nth_error (st_heap s') j = nth_error (st_heap s) j) /\
    (forall j, length (st_heap s) <= j < length (st_heap s') -> cell s' j).

  Lemma grows_refl i s : grows i s s.
  Proof. split; [apply le_refl|split; auto; intros; lia]. Qed.
  Lemma cell_mono s s' j : le s s' -> nth_error (st_heap s') j = nth_error (st_heap s) j -> cell s j -> cell s' j.
  Proof.
    intros L E (n & d & x & H1 & H2 & H3). exists n, d, x. split; [congruence|]. split; [apply L; auto|eapply node_for_mono; eauto].
  Qed.
  Lemma grows_trans i a b c : grows None a b -> grows i b c -> (forall j, i = Some j -> j < length (st_heap a)) -> grows i a c.
  Proof.
    intros (A1 & A2 & A3) (B1 & B2 & B3) Hi. split; [eapply le_trans; eauto|]. split.
    - intros j Hj Hn. rewrite B2; auto. apply A2; auto. discriminate. destruct A1 as (_ & ? & _); lia.
    - intros j Hj. destruct (Nat.lt_ge_cases j (length (st_heap b))) as [Hlt|Hge]; [|apply B3; lia].
      apply cell_mono with b; auto; [|apply A3; lia]. apply B2; auto. intros E. apply Hi in E. lia.
  Qed.
  Lemma grows_trans0 a b c : grows None a b -> grows None b c -> grows None a c.
  Proof. intros H1 H2. eapply grows_trans; eauto. discriminate. Qed.

  (** A step that returns [a]: proper state, growth, and Q about the result. *)
  Definition step {A} (x : comp A) (Q : A -> cstate -> Prop) : Prop :=
    forall s a s', wf s -> x s = COk a s' -> wf s' /\ grows None s s' /\ Q a s'.

  (** Computations that leave the state alone. *)
  Definition pure {A} (x : comp A) (Q : A -> Prop) : Prop :=
    forall s a s', x s = COk a s' -> s' = s /\ Q a.
  Lemma pure_step {A} (x : comp A) Q : pure x Q -> step x (fun a _ => Q a).
  Proof. intros H s a s' W E. apply H in E. destruct E as [-> HQ]. split; auto. split; auto. apply grows_refl. Qed.

  Lemma ck_pure v ks : pure (ck ce v ks) (fun b => kind_of lim v <> Panic /\ forall k, kind_of lim v = Ok k -> b = existsb (kind_eqb k) ks).
  Proof.
    intros s a s' E. unfold ck in E. apply lift_ok in E. destruct E as [E ->]. split; auto. unfold isKind in E.
    apply obind_ok in E. destruct E as (k & Ek & E). injection E as <-. unfold ModelCompile.lim in Ek. rewrite Ek. split; [discriminate|]. intros k' [= <-]. reflexivity.
  Qed.

  (** *** Keywords without subschemas *)

  Lemma types_add_pure t e : pure (types_add t e) (fun r => r = t ++ [e] /\ In e JSON_TYPES).
  Proof.
    intros s a s' E. unfold types_add in E. destruct (isStringInSlice JSON_TYPES e) eqn:H; [|discriminate].
    simpl in E. destruct (Contains t e); [discriminate|]. unfold cret in E. injection E as <- <-. split; auto. split; auto.
    apply in_slice; auto.
  Qed.
  Lemma add_types_pure l : forall t, pure (add_types t l) (fun r => exists ts, l = map VStr ts /\ r = t ++ ts /\ Forall (fun t => In t JSON_TYPES) ts).
  Proof.
    induction l as [|x l IH]; intros t s a s' E.
    - unfold cret in E. simpl in E. injection E as <- <-. split; auto. exists []. rewrite app_nil_r. auto.
    - destruct x; try discriminate. cbn [add_types] in E. apply cbind_ok in E. destruct E as (t1 & s1 & E1 & E).
      apply types_add_pure in E1. destruct E1 as (-> & -> & Hin). apply IH in E. destruct E as (-> & ts & -> & -> & HF). split; auto.
      exists (s0 :: ts). rewrite <- app_assoc. auto.
  Qed.
  Lemma p_type_pure m : pure (p_type ce m) (type_ok m).
  Proof.
    intros s a s' E. unfold p_type, type_ok in *. destruct (assoc "type" m) as [v|]; [|unfold cret in E; injection E as <- <-; auto].
    apply cbind_ok in E. destruct E as (b & s1 & E1 & E). apply ck_pure in E1. destruct E1 as (-> & Hp & Hk).
    destruct v; destruct b;
      try (apply cbind_ok in E; destruct E as (b2 & s2 & E2 & E); apply ck_pure in E2; destruct E2 as (-> & Hp2 & Hk2); destruct b2);
      try discriminate E; try (specialize (Hk _ eq_refl); discriminate Hk).
    - apply types_add_pure in E. destruct E as (-> & -> & Hin). split; [|split]; simpl; auto.
    - apply add_types_pure in E. destruct E as (-> & ts & -> & -> & HF). split; [|split]; auto.
  Qed.

  Lemma p_multipleOf_pure m : pure (p_multipleOf ce m) (mult_ok lim m).
  Proof.
    intros s a s' E. unfold p_multipleOf, mult_ok, ModelCompile.lim in *. destruct (assoc _ m) as [v|]; [|unfold cret in E; injection E as <- <-; auto].
    destruct (mustBeNumber lim v) as [q|]; [|discriminate]. destruct (Qle_bool q 0) eqn:H; [discriminate|]. unfold cret in E. injection E as <- <-.
    split; auto. exists q. split; [auto|split; [auto|]]. apply Qnot_le_lt. intros L. apply Qle_bool_iff in L. congruence.
  Qed.

  Lemma p_bound_pure key xkey d m : pure (p_bound ce key xkey d m) (fun r => bound_ok lim d m key xkey (fst r) (snd r)).
  Proof.
    intros s a s' E. unfold p_bound, bound_ok, ModelCompile.lim in *. apply cbind_ok in E. destruct E as (incl & s1 & E1 & E).
    assert (H1 : s1 = s /\ match assoc key m with None => incl = None | Some v => exists q, mustBeNumber lim v = Some q /\ incl = Some q end).
    { destruct (assoc key m) as [v|]; [|unfold cret in E1; injection E1 as <- <-; auto].
      destruct (mustBeNumber lim v) as [q|]; [|discriminate]. unfold cret in E1. injection E1 as <- <-. eauto. }
    destruct H1 as [-> H1].
    destruct (assoc xkey m) as [v|]; [|unfold cret in E; injection E as <- <-; split; auto; exists incl; auto].
    destruct d; try (apply cbind_ok in E; destruct E as (b & s2 & E2 & E); apply ck_pure in E2; destruct E2 as (-> & Hp & Hk)).
    - destruct b; [|discriminate]. destruct v; try discriminate. destruct incl as [q|]; [|discriminate]. unfold cret in E. injection E as <- <-. split; auto.
      exists (Some q). split; auto. split; auto. exists q. split; auto. destruct b; auto.
    - destruct v; try discriminate. unfold cret in E. injection E as <- <-. split; auto. exists incl. split; auto. split; [discriminate|auto].
    - destruct v; try discriminate. unfold cret in E. injection E as <- <-. split; auto. exists incl. split; auto. split; [discriminate|auto].
    - destruct v as [|b0|t| | | | |]; try (destruct b; discriminate).
      + destruct b; [|discriminate]. destruct incl as [q|]; [|discriminate]. unfold cret in E. injection E as <- <-. split; auto.
        exists (Some q). split; auto. split; auto. exists q. split; auto. destruct b0; auto.
      + assert (E' : cret (incl, mustBeNumber lim (VNum t)) s = COk a s') by (destruct b; auto). unfold cret in E'. injection E' as <- <-. split; auto. exists incl. split; auto. split; [discriminate|auto].
  Qed.

  Lemma p_natural_pure key m : pure (p_natural ce key m) (nat_ok lim m key).
  Proof.
    intros s a s' E. unfold p_natural, nat_ok, ModelCompile.lim in *. destruct (assoc _ m) as [v|]; [|unfold cret in E; injection E as <- <-; auto].
    destruct (mustBeInteger lim v) as [z|]; [|discriminate]. destruct (Z.ltb_spec z 0); [discriminate|]. unfold cret in E. injection E as <- <-.
    split; auto. exists z. auto.
  Qed.
  Lemma p_le_pure a b e : pure (p_le a b e) (fun _ => True).
  Proof.
    intros s x s' E. unfold p_le in E. destruct a, b; try (unfold cret in E; injection E as <- <-; auto; fail).
    destruct (z0 <? z)%Z; [discriminate|]. unfold cret in E. injection E as <- <-; auto.
  Qed.
  Lemma p_pattern_pure m : pure (p_pattern ce m) (pattern_ok re_ok m).
  Proof.
    intros s a s' E. unfold p_pattern, pattern_ok in *. destruct (assoc _ m) as [v|]; [|unfold cret in E; injection E as <- <-; auto].
    apply cbind_ok in E. destruct E as (b & s1 & E1 & E). apply ck_pure in E1. destruct E1 as (-> & _).
    destruct b; [|discriminate]. destruct v; try discriminate. destruct (re_ok s0); [|discriminate]. unfold cret in E. injection E as <- <-. auto.
  Qed.
  Lemma p_format_pure m : pure (p_format m) (format_ok m).
  Proof.
    intros s a s' E. unfold p_format, format_ok in *. destruct (assoc _ m) as [[]|]; try discriminate; unfold cret in E; injection E as <- <-; auto.
  Qed.
  Lemma add_required_pure l : forall t, pure (add_required ce t l) (fun r => exists ts, l = map VStr ts /\ r = t ++ ts).
  Proof.
    induction l as [|x l IH]; intros t s a s' E.
    - unfold cret in E. simpl in E. injection E as <- <-. split; auto. exists []. rewrite app_nil_r. auto.
    - cbn [add_required] in E. apply cbind_ok in E. destruct E as (b & s1 & E1 & E). apply ck_pure in E1. destruct E1 as (-> & _).
      destruct b; [|discriminate]. destruct x; try discriminate. destruct (isStringInSlice t s0); [discriminate|].
      apply IH in E. destruct E as (-> & ts & -> & ->). split; auto. exists (s0 :: ts). rewrite <- app_assoc. auto.
  Qed.
  Lemma p_required_pure m : pure (p_required ce m) (required_ok m).
  Proof.
    intros s a s' E. unfold p_required, required_ok in *. destruct (assoc _ m) as [v|]; [|unfold cret in E; injection E as <- <-; auto].
    apply cbind_ok in E. destruct E as (b & s1 & E1 & E). apply ck_pure in E1. destruct E1 as (-> & _).
    destruct b; [|discriminate]. destruct v; try discriminate. apply add_required_pure in E. destruct E as (-> & ts & -> & ->). auto.
  Qed.
  Lemma p_uniqueItems_pure m : pure (p_uniqueItems ce m) (unique_ok m).
  Proof.
    intros s a s' E. unfold p_uniqueItems, unique_ok in *. destruct (assoc _ m) as [v|]; [|unfold cret in E; injection E as <- <-; auto].
    apply cbind_ok in E. destruct E as (b & s1 & E1 & E). apply ck_pure in E1. destruct E1 as (-> & _).
    destruct b; [|discriminate]. destruct v; try discriminate. unfold cret in E. injection E as <- <-. auto.
  Qed.
  Lemma p_const_pure d m : pure (p_const d m) (const_ok d m).
  Proof.
    intros s a s' E. unfold p_const, const_ok in *. destruct (draft_ge6 d); [|unfold cret in E; injection E as <- <-; auto].
    destruct (assoc _ m) as [v|]; [|unfold cret in E; injection E as <- <-; auto].
    destruct (marshalWithoutNumber v) as [t|]; [|discriminate]. unfold cret in E. injection E as <- <-. split; auto. split; [discriminate|auto].
  Qed.
  Lemma add_enum_pure l : forall t, pure (add_enum t l) (fun r => exists ts, map marshalWithoutNumber l = map Some ts /\ r = t ++ ts).
  Proof.
    induction l as [|x l IH]; intros t s a s' E.
    - unfold cret in E. simpl in E. injection E as <- <-. split; auto. exists []. rewrite app_nil_r. auto.
    - cbn [add_enum] in E. destruct (marshalWithoutNumber x) as [k|] eqn:Ex; [|discriminate].
      destruct (isStringInSlice t k); [discriminate|]. apply IH in E. destruct E as (-> & ts & E1 & ->). split; auto.
      exists (k :: ts). rewrite <- app_assoc. simpl. rewrite Ex, E1. auto.
  Qed.
  Lemma p_enum_pure m : pure (p_enum ce m) (enum_ok m).
  Proof.
    intros s a s' E. unfold p_enum, enum_ok in *. destruct (assoc _ m) as [v|]; [|unfold cret in E; injection E as <- <-; auto].
    apply cbind_ok in E. destruct E as (b & s1 & E1 & E). apply ck_pure in E1. destruct E1 as (-> & _).
    destruct b; [|discriminate]. destruct v; try discriminate. apply add_enum_pure in E. destruct E as (-> & ts & E1 & ->). auto.
  Qed.
  Lemma p_string_only_pure key m : pure (p_string_only ce key m)
    (fun _ => match assoc key m with None => True | Some v => exists t, v = VStr t end).
  Proof.
    intros s a s' E. unfold p_string_only in *. destruct (assoc _ m) as [v|]; [|unfold cret in E; injection E as <- <-; auto].
    apply cbind_ok in E. destruct E as (b & s1 & E1 & E). apply ck_pure in E1. destruct E1 as (-> & Hp & Hk).
    destruct b; [|discriminate]. unfold cret in E. injection E as <- <-. split; auto.
    destruct v; cbn [kind_of] in *; try (specialize (Hk _ eq_refl); discriminate); eauto.
    destruct (rat_of _ _); [specialize (Hk _ eq_refl); discriminate|congruence].
  Qed.
  Lemma p_id_pure a m : pure (p_id ce a m) (fun _ => True).
  Proof.
    intros s x s' E. unfold p_id in E. destruct (assoc _ m) as [v|]; [|unfold cret in E; injection E as <- <-; auto].
    apply cbind_ok in E. destruct E as (b & s1 & E1 & E). apply ck_pure in E1. destruct E1 as (-> & _).
    destruct b; [|discriminate]. simpl in E. destruct v; try (unfold cret in E; injection E as <- <-; auto; fail).
    destruct (u_parse ce s0); [|discriminate]. destruct (pa_root a); [unfold cret in E; injection E as <- <-; auto|].
    destruct (u_inherits _ _ _); [|discriminate]. unfold cret in E; injection E as <- <-; auto.
  Qed.
  Lemma dep_strings_pure l : pure (dep_strings ce l) (fun r => l = map VStr r).
  Proof.
    induction l as [|x l IH]; intros s a s' E.
    - unfold cret in E. simpl in E. injection E as <- <-. auto.
    - cbn [dep_strings] in E. apply cbind_ok in E. destruct E as (b & s1 & E1 & E). apply ck_pure in E1. destruct E1 as (-> & _).
      destruct b; [|discriminate]. destruct x; try discriminate. apply cbind_ok in E. destruct E as (r & s1 & E1 & E).
      apply IH in E1. destruct E1 as [-> ->]. unfold cret in E. injection E as <- <-. auto.
  Qed.
End State.
