(** Schemas that differ only in what must be ignored compile to graphs that
    agree cell by cell. *)
From Verif Require Export SpecAlike CompileRefs ValidateBisim.
Open Scope nat_scope.

Lemma concat_perm {A} (l l' : list (list A)) : Permutation l l' -> Permutation (concat l) (concat l').
Proof.
  induction 1; simpl; auto.
  - apply Permutation_app_head; auto.
  - rewrite !app_assoc. apply Permutation_app_tail, Permutation_app_comm.
  - etransitivity; eauto.
Qed.
Lemma map_VStr_inj l l' : map VStr l = map VStr l' -> l = l'.
Proof. revert l'. induction l; destruct l'; simpl; try discriminate; auto. intros [= -> H]. f_equal; auto. Qed.
Lemma map_Some_inj {A} (l l' : list A) : map Some l = map Some l' -> l = l'.
Proof. revert l'. induction l; destruct l'; simpl; try discriminate; auto. intros [= -> H]. f_equal; auto. Qed.

Section Alike.
  Variable lim : Z.
  Variable re_ok : string -> bool.
  Variables kid1 kid2 : nat -> draft -> value -> Prop.
  Variables named1 named2 : nat -> string -> Prop.
  Variables h1 h2 : heap.
  Variable AA : draft -> value -> draft -> value -> Prop.
  Definition cells_alike (i j : nat) : Prop := exists d x d' y, kid1 i d x /\ kid2 j d' y /\ AA d x d' y.
  Notation T := cells_alike.
  Hypothesis N1 : forall i k, named1 i k -> prop_name h1 i = Ok k.
  Hypothesis N2 : forall i k, named2 i k -> prop_name h2 i = Ok k.
  Variable d : draft.
  Variables m m' : list (string * value).
  Notation A := (fun x y => AA d x d y).

  Lemma opt_alike key r r' : both A (assoc key m) (assoc key m') ->
    opt_ok kid1 d m key r -> opt_ok kid2 d m' key r' -> opt_rel T r r'.
  Proof.
    unfold opt_ok. destruct 1 as [|x y H].
    - intros -> ->. exact I.
    - intros (i & -> & K1) (j & -> & K2). exists d, x, d, y. auto.
  Qed.
  Lemma gated_alike b key r r' : (b = true -> both A (assoc key m) (assoc key m')) ->
    gated b r (opt_ok kid1 d m key r) -> gated b r' (opt_ok kid2 d m' key r') -> opt_rel T r r'.
  Proof. intros H. unfold gated. destruct b; [specialize (H eq_refl); apply opt_alike; auto|]. intros -> ->. exact I. Qed.
  Lemma addl_alike key r r' : both (addl_part A) (assoc key m) (assoc key m') ->
    addl_ok kid1 d m key r -> addl_ok kid2 d m' key r' -> addl_rel T r r'.
  Proof.
    unfold addl_ok. destruct 1 as [|x y H].
    - intros -> ->. exact I.
    - destruct H as [b|a a' H].
      + intros -> ->. reflexivity.
      + intros (i & -> & K1) (j & -> & K2). do 4 eexists; eauto.
  Qed.
  Lemma schemas_alike key ids ids' : both (arr_part A) (assoc key m) (assoc key m') ->
    schemas_ok kid1 d m key ids -> schemas_ok kid2 d m' key ids' -> Forall2 T ids ids'.
  Proof.
    unfold schemas_ok. destruct 1 as [|x y H].
    - intros -> ->. constructor.
    - destruct H as [l l' H]. intros H1 H2. revert ids ids' H1 H2. induction H; intros; inversion H1; inversion H2; subst; constructor; auto.
      do 4 eexists; eauto.
  Qed.
  Hypothesis A_arr : forall l y, ~ AA d (VArr l) d y.
  Hypothesis A_arr' : forall l x, ~ AA d x d (VArr l).
  Lemma items_alike ids b ids' b' : both (item_part A) (assoc "items" m) (assoc "items" m') ->
    items_ok kid1 d m ids b -> items_ok kid2 d m' ids' b' -> Forall2 T ids ids' /\ b = b'.
  Proof.
    unfold items_ok. destruct 1 as [|x y H].
    - intros [-> ->] [-> ->]. split; auto.
    - destruct H as [l l' H|x y H].
      + intros [-> H1] [-> H2]. split; auto. revert ids ids' H1 H2. induction H; intros; inversion H1; inversion H2; subst; constructor; auto.
        do 4 eexists; eauto.
      + destruct x; try (destruct (A_arr _ _ H); fail); intros (-> & i & -> & K1);
          destruct y; try (destruct (A_arr' _ _ H); fail); intros (-> & j & -> & K2); split; auto; constructor; auto; do 4 eexists; eauto.
  Qed.
  (** Entries of a Go map, enumerated twice. *)
  Lemma members_alike (P : value -> value -> Prop) ps ps' es es' : map_part P (VMap ps) (VMap ps') -> Permutation ps es -> Permutation ps' es' ->
    exists es2, Permutation es es2 /\ Forall2 (entry_rel P) es2 es'.
  Proof.
    intros H HP HP'. inversion H as [? m1 ? HQ HF]; subst.
    destruct (Forall2_perm_r _ _ _ _ HP' HF) as (m2 & HQ2 & HF2). exists m2. split; auto.
    etransitivity; [symmetry; exact HP|]. etransitivity; eauto.
  Qed.
  Lemma props_alike ids ids' : both (map_part A) (assoc "properties" m) (assoc "properties" m') ->
    props_ok kid1 named1 d m ids -> props_ok kid2 named2 d m' ids' ->
    exists l, Permutation ids l /\ Forall2 (prop_rel h1 h2 T) l ids'.
  Proof.
    unfold props_ok. destruct 1 as [|x y H].
    - intros -> ->. exists []. split; constructor.
    - pose proof H as H0. destruct H0 as [ps m1 ps' _ _]. intros (es & HP & HF) (es' & HP' & HF').
      destruct (members_alike A ps ps' es es' H HP HP') as (es2 & HQ & HE).
      destruct (Forall2_perm_l _ _ _ _ HQ HF) as (l & HQ' & HF2). exists l. split; auto.
      clear - HE HF2 HF' N1 N2. revert l ids' HF2 HF'. induction HE as [|a b es2 es' [E1 E2] _ IH]; intros l ids' F1 F2; inversion F1; inversion F2; subst; constructor; auto.
      match goal with H1 : _ /\ named1 _ _, H2 : _ /\ named2 _ _ |- _ => destruct H1 as [K1 M1], H2 as [K2 M2] end.
      split; [do 4 eexists; eauto|]. exists (fst a). split; [apply N1; auto|apply N2; rewrite E1; auto].
  Qed.
  Lemma pats_alike l l' : both (map_part A) (assoc "patternProperties" m) (assoc "patternProperties" m') ->
    pats_ok re_ok kid1 d m l -> pats_ok re_ok kid2 d m' l' -> map_rel T l l'.
  Proof.
    unfold pats_ok. destruct 1 as [|x y H].
    - intros -> ->. exists []. split; constructor.
    - pose proof H as H0. destruct H0 as [ps m1 ps' _ _]. intros (es & HP & HF) (es' & HP' & HF').
      destruct (members_alike A ps ps' es es' H HP HP') as (es2 & HQ & HE).
      destruct (Forall2_perm_l _ _ _ _ HQ HF) as (l2 & HQ' & HF2). exists l2. split; auto.
      clear - HE HF2 HF'. revert l2 l' HF2 HF'. induction HE as [|a b es2 es' [E1 E2] _ IH]; intros l2 l' F1 F2; inversion F1; inversion F2; subst; constructor; auto.
      match goal with H1 : _ /\ _ /\ kid1 _ _ _, H2 : _ /\ _ /\ kid2 _ _ _ |- _ => destruct H1 as (M1 & _ & K1), H2 as (M2 & _ & K2) end.
      split; [congruence|]. do 4 eexists; eauto.
  Qed.
  Lemma dep_alike e e' x x' : entry_rel (dep_part A) e e' -> dep_ok kid1 d e x -> dep_ok kid2 d e' x' -> Forall2 (entry_rel (dep_rel T)) x x'.
  Proof.
    intros [E H]. unfold dep_ok. remember (snd e) as a. remember (snd e') as a'. clear Heqa Heqa'. destruct H as [l|a a' H].
    - intros (ns & E1 & ->) (ns' & E2 & ->). assert (ns = ns') by (apply map_VStr_inj; congruence). subst ns'.
      destruct ns; constructor; auto. split; auto. reflexivity.
    - intros H1 H2. assert (X : exists i, x = [(fst e, DepSchema i)] /\ kid1 i d a) by (destruct a; auto; destruct (A_arr _ _ H)).
      assert (Y : exists i, x' = [(fst e', DepSchema i)] /\ kid2 i d a') by (destruct a'; auto; destruct (A_arr' _ _ H)).
      destruct X as (i & -> & K1), Y as (j & -> & K2). constructor; auto. split; auto. do 4 eexists; eauto.
  Qed.
  Lemma deps_keys (kd : nat -> draft -> value -> Prop) es ls : Forall2 (dep_ok kd d) es ls -> NoDup (map fst es) -> NoDup (map fst (concat ls)).
  Proof.
    intros HF. assert (X : forall k, In k (map fst (concat ls)) -> In k (map fst es)).
    { induction HF as [|e l es ls He _ IH]; simpl; auto. intros k. rewrite map_app, in_app_iff. intros [H|H]; auto. left.
      unfold dep_ok in He. destruct (snd e); try (destruct He as (i & -> & _); destruct H as [<-|[]]; auto; fail).
      destruct He as (ns & _ & ->). destruct ns; [destruct H|destruct H as [<-|[]]; auto]. }
    induction HF as [|e l es ls He HF IH]; simpl; [constructor|]. intros N. inversion N as [|? ? Hni N']; subst.
    assert (Y : forall k, In k (map fst (concat ls)) -> In k (map fst es)).
    { clear - HF. induction HF as [|e l es ls He _ IH]; simpl; auto. intros k. rewrite map_app, in_app_iff. intros [H|H]; auto. left.
      unfold dep_ok in He. destruct (snd e); try (destruct He as (i & -> & _); destruct H as [<-|[]]; auto; fail).
      destruct He as (ns & _ & ->). destruct ns; [destruct H|destruct H as [<-|[]]; auto]. }
    specialize (IH Y N'). unfold dep_ok in He.
    destruct (snd e); try (destruct He as (i & -> & _); simpl; constructor; auto; fail).
    destruct He as (ns & _ & ->). destruct ns; simpl; auto. constructor; auto.
  Qed.
  Lemma deps_alike l l' : (forall ds, assoc "dependencies" m = Some (VMap ds) -> NoDup (map fst ds)) ->
    both (map_part (dep_part A)) (assoc "dependencies" m) (assoc "dependencies" m') ->
    deps_ok kid1 d m l -> deps_ok kid2 d m' l' -> NoDup (map fst l) /\ map_rel (dep_rel T) l l'.
  Proof.
    intros ND. unfold deps_ok. destruct (assoc "dependencies" m) as [x|]; inversion 1 as [|? y H0]; subst.
    - pose proof H0 as H1. destruct H1 as [ps m1 ps' _ _]. intros (es & ls & HP & HF & ->) (es' & ls' & HP' & HF' & ->). split.
      + eapply deps_keys; [exact HF|]. eapply Permutation_NoDup; [apply Permutation_map; exact HP|]. auto.
      + destruct (members_alike _ ps ps' es es' H0 HP HP') as (es2 & HQ & HE).
        destruct (Forall2_perm_l _ _ _ _ HQ HF) as (ls2 & HQ' & HF2). exists (concat ls2). split; [apply concat_perm; auto|].
        clear - HE HF2 HF' A_arr A_arr'. revert ls2 ls' HF2 HF'. induction HE as [|a b es2 es' HE _ IH]; intros l2 l' F1 F2; inversion F1; inversion F2; subst; simpl; [constructor|].
        apply Forall2_app; auto. eapply dep_alike; eauto.
    - intros -> ->. split; [constructor|]. exists []. split; constructor.
  Qed.

  Lemma bound_same k xk r1 r2 r1' r2' : assoc k m = assoc k m' -> assoc xk m = assoc xk m' ->
    bound_ok lim d m k xk r1 r2 -> bound_ok lim d m' k xk r1' r2' -> r1 = r1' /\ r2 = r2'.
  Proof.
    unfold bound_ok. intros E1 E2 (i & H1 & H2) (j & H3 & H4). rewrite <- E1 in H3. rewrite <- E2 in H4.
    assert (i = j). { destruct (assoc k m); [|congruence]. destruct H1 as (q & Hq & ->), H3 as (q' & Hq' & ->). congruence. }
    subst j. destruct (assoc xk m) as [[| | | | | | |]|]; try tauto.
    - destruct H2 as (_ & q & -> & H2), H4 as (_ & q' & Eq & H4). injection Eq as <-. destruct b; intuition congruence.
    - intuition congruence.
    - intuition congruence.
  Qed.
  Lemma nat_same k r r' : assoc k m = assoc k m' -> nat_ok lim m k r -> nat_ok lim m' k r' -> r = r'.
  Proof.
    unfold nat_ok. intros <-. destruct (assoc k m); [|congruence]. intros (z & H1 & _ & ->) (z' & H2 & _ & ->). congruence.
  Qed.

  Theorem describes_alike n n' :
    (forall ds, assoc "dependencies" m = Some (VMap ds) -> NoDup (map fst ds)) ->
    (forall k, In k plain_keywords -> heard d k -> assoc k m = assoc k m') ->
    (forall k, In k schema_keywords -> heard d k -> both A (assoc k m) (assoc k m')) ->
    (forall k, In k addl_keywords -> both (addl_part A) (assoc k m) (assoc k m')) ->
    (forall k, In k list_keywords -> both (arr_part A) (assoc k m) (assoc k m')) ->
    (forall k, In k map_keywords -> both (map_part A) (assoc k m) (assoc k m')) ->
    both (item_part A) (assoc "items" m) (assoc "items" m') ->
    both (map_part (dep_part A)) (assoc "dependencies" m) (assoc "dependencies" m') ->
    describes lim re_ok kid1 named1 d m n -> describes lim re_ok kid2 named2 d m' n' ->
    body_rel h1 h2 T n n'.
  Proof.
    intros ND HP HS HA HL HM HI HD Dn Dn'. unfold describes in Dn, Dn'.
    repeat match goal with H : _ /\ _ |- _ => destruct H end.
    unfold plain_keywords, schema_keywords, addl_keywords, list_keywords, map_keywords in *.
    assert (Gk : forall k, existsb (String.eqb k) ["const"; "contains"; "propertyNames"; "if"; "then"; "else"] = false -> heard d k).
    { intros k E. split; intros Hk; exfalso; simpl in E, Hk; repeat match goal with H : _ \/ _ |- _ => destruct H as [<-|H] end; try discriminate E; auto. }
    assert (G6k : forall k, existsb (String.eqb k) ["if"; "then"; "else"] = false -> draft_ge6 d = true -> heard d k).
    { intros k E G. split; intros Hk; [apply since6_ge; auto|]. exfalso; simpl in E, Hk; repeat match goal with H : _ \/ _ |- _ => destruct H as [<-|H] end; try discriminate E; auto. }
    assert (G7k : forall k, existsb (String.eqb k) ["const"; "contains"; "propertyNames"] = false -> draft_ge7 d = true -> heard d k).
    { intros k E G. split; intros Hk; [|apply since7_ge; auto]. exfalso; simpl in E, Hk; repeat match goal with H : _ \/ _ |- _ => destruct H as [<-|H] end; try discriminate E; auto. }
    assert (PK : forall k, existsb (String.eqb k) plain_keywords = true -> heard d k -> assoc k m = assoc k m').
    { intros k E. apply HP. apply existsb_exists in E. destruct E as (y & Hy & E). apply String.eqb_eq in E. subst. exact Hy. }
    assert (SK : forall k, existsb (String.eqb k) schema_keywords = true -> heard d k -> both A (assoc k m) (assoc k m')).
    { intros k E. apply HS. apply existsb_exists in E. destruct E as (y & Hy & E). apply String.eqb_eq in E. subst. exact Hy. }
    clear HP HS.
    repeat match goal with
    | H1 : nat_ok lim m ?k ?r, H2 : nat_ok lim m' ?k ?r' |- _ => pose proof (nat_same k r r' (PK k eq_refl (Gk k eq_refl)) H1 H2); clear H1 H2
    | H1 : bound_ok lim d m ?k ?x ?r ?q, H2 : bound_ok lim d m' ?k ?x ?r' ?q' |- _ => destruct (bound_same k x r q r' q' (PK k eq_refl (Gk k eq_refl)) (PK x eq_refl (Gk x eq_refl)) H1 H2); clear H1 H2
    | H1 : addl_ok kid1 d m ?k ?r, H2 : addl_ok kid2 d m' ?k ?r' |- _ => assert (addl_rel T r r') by (apply (addl_alike k r r'); [apply HA; simpl; auto|exact H1|exact H2]); clear H1 H2
    | H1 : opt_ok kid1 d m ?k ?r, H2 : opt_ok kid2 d m' ?k ?r' |- _ => pose proof (opt_alike k r r' (SK k eq_refl (Gk k eq_refl)) H1 H2); clear H1 H2
    | H1 : gated ?b ?r (opt_ok kid1 d m ?k ?r), H2 : gated ?b ?r' (opt_ok kid2 d m' ?k ?r') |- _ =>
        assert (opt_rel T r r') by (apply (gated_alike b k r r'); [intros G; apply (SK k eq_refl); first [apply (G6k k eq_refl G)|apply (G7k k eq_refl G)]|exact H1|exact H2]); clear H1 H2
    | H1 : schemas_ok kid1 d m ?k ?r, H2 : schemas_ok kid2 d m' ?k ?r' |- _ =>
        assert (Forall2 T r r') by (apply (schemas_alike k r r'); [apply HL; simpl; auto|exact H1|exact H2]); clear H1 H2
    | H1 : items_ok kid1 d m ?r ?b, H2 : items_ok kid2 d m' ?r' ?b' |- _ => destruct (items_alike r b r' b' HI H1 H2); clear H1 H2
    | H1 : deps_ok kid1 d m ?r, H2 : deps_ok kid2 d m' ?r' |- _ => destruct (deps_alike r r' ND HD H1 H2); clear H1 H2
    | H1 : pats_ok _ kid1 d m ?r, H2 : pats_ok _ kid2 d m' ?r' |- _ =>
        assert (map_rel T r r') by (apply (pats_alike r r'); [apply HM; simpl; auto|exact H1|exact H2]); clear H1 H2
    | H1 : props_ok kid1 _ d m ?r, H2 : props_ok kid2 _ d m' ?r' |- _ =>
        assert (exists l, Permutation r l /\ Forall2 (prop_rel h1 h2 T) l r') by (apply (props_alike r r'); [apply HM; simpl; auto|exact H1|exact H2]); clear H1 H2
    end.
    constructor; auto; try congruence;
      repeat match goal with H : forall k, _ |- _ => revert H end; try (intros; assumption); intros.
    - match goal with H1 : type_ok m _, H2 : type_ok m' _ |- _ => destruct H1 as [H1 _], H2 as [H2 _]; rewrite <- (PK "type" eq_refl (Gk "type" eq_refl)) in H2 end.
      destruct (assoc "type" m) as [[]|]; try tauto; try congruence. apply map_VStr_inj. congruence.
    - match goal with H1 : mult_ok lim m _, H2 : mult_ok lim m' _ |- _ => unfold mult_ok in H1, H2; rewrite <- (PK "multipleOf" eq_refl (Gk "multipleOf" eq_refl)) in H2; destruct (assoc "multipleOf" m);
        [destruct H1 as (q & -> & H1 & _), H2 as (q' & -> & H2 & _)|] end; congruence.
    - match goal with H1 : pattern_ok _ m _, H2 : pattern_ok _ m' _ |- _ => unfold pattern_ok in H1, H2; rewrite <- (PK "pattern" eq_refl (Gk "pattern" eq_refl)) in H2 end.
      destruct (assoc "pattern" m) as [[]|]; intuition congruence.
    - match goal with H1 : format_ok m _, H2 : format_ok m' _ |- _ => unfold format_ok in H1, H2; rewrite <- (PK "format" eq_refl (Gk "format" eq_refl)) in H2 end.
      destruct (assoc "format" m) as [[]|]; intuition congruence.
    - match goal with H1 : required_ok m _, H2 : required_ok m' _ |- _ => unfold required_ok in H1, H2; rewrite <- (PK "required" eq_refl (Gk "required" eq_refl)) in H2 end.
      destruct (assoc "required" m) as [[]|]; try tauto; try congruence. apply map_VStr_inj. congruence.
    - match goal with H1 : unique_ok m _, H2 : unique_ok m' _ |- _ => unfold unique_ok in H1, H2; rewrite <- (PK "uniqueItems" eq_refl (Gk "uniqueItems" eq_refl)) in H2 end.
      destruct (assoc "uniqueItems" m) as [[]|]; intuition congruence.
    - match goal with H1 : const_ok d m _, H2 : const_ok d m' _ |- _ => unfold const_ok in H1, H2 end.
      destruct (draft_ge6 d) eqn:G; [|congruence]. rewrite <- (PK "const" eq_refl (G6k "const" eq_refl eq_refl)) in *. destruct (assoc "const" m); [|congruence]. intuition congruence.
    - match goal with H1 : enum_ok m _, H2 : enum_ok m' _ |- _ => unfold enum_ok in H1, H2; rewrite <- (PK "enum" eq_refl (Gk "enum" eq_refl)) in H2 end.
      destruct (assoc "enum" m) as [[]|]; try tauto; try congruence. apply map_Some_inj. congruence.
  Qed.
End Alike.

(** ** Compiled documents *)
Section States.
  Variables ce1 ce2 : cenv.
  Hypothesis Hgo : c_go ce1 = c_go ce2.
  Variables pd1 pd2 : policy.
  Variables s1 s2 : cstate.
  Hypothesis W1 : wf ce1 pd1 s1.
  Hypothesis W2 : wf ce2 pd2 s2.
  Hypothesis C1 : forall j, j < length (st_heap s1) -> cell ce1 s1 j.
  Hypothesis C2 : forall j, j < length (st_heap s2) -> cell ce2 s2 j.
  Variable T1 : string -> draft -> value -> Prop.
  (** The references met in the first document lead where T1 says. *)
  Hypothesis HT1 : forall i d m k, kid s1 i d (VMap m) -> assoc "$ref" m = Some (VStr k) ->
    forall d' x, target ce1 s1 k d' x <-> T1 k d' x.
  Hypothesis T1_fun : forall k d x d' x', T1 k d x -> T1 k d' x' -> d = d' /\ x = x'.
  Hypothesis HT : forall i d m j d' m' k, kid s1 i d (VMap m) -> kid s2 j d' (VMap m') ->
    assoc "$ref" m = Some (VStr k) -> assoc "$ref" m' = Some (VStr k) ->
    forall d1 x d2 y, target ce1 s1 k d1 x -> target ce2 s2 k d2 y -> alike T1 d1 x d2 y.

  Notation C := (cells_alike (kid s1) (kid s2) (alike T1)).

  Lemma named_name s i k : named s i k -> prop_name (st_heap s) i = Ok k.
  Proof. intros (n & E & <-). unfold prop_name. rewrite E. reflexivity. Qed.

  Lemma cells_bisim i j n : C i j -> nth_error (st_heap s1) i = Some n ->
    (exists n', nth_error (st_heap s2) j = Some n' /\ node_rel (st_heap s1) (st_heap s2) C n n') \/
    (exists i', n_pass n = None /\ n_ref n = Some i' /\ C i' j).
  Proof.
    intros (d & x & d' & y & K1 & K2 & A) En.
    destruct (kid_cell ce1 pd1 s1 W1 C1 _ _ _ K1) as (n0 & En0 & _ & Fn). assert (n0 = n) by congruence. subst n0. clear En0.
    destruct A as [d b d'|d m d' m' k E E'|d m k d1 x d' y E T A|d m m' E E' HP HS HA HL HM HI HD].
    - destruct (kid_cell ce2 pd2 s2 W2 C2 _ _ _ K2) as (n' & En' & _ & Fn').
      left. exists n'. split; auto. destruct Fn as [_ Fn], Fn' as [_ Fn']. unfold node_rel. rewrite Fn. auto.
    - destruct (kid_cell ce2 pd2 s2 W2 C2 _ _ _ K2) as (n' & En' & _ & Fn').
      left. exists n'. split; auto. destruct Fn as [Ep Fn], Fn' as [Ep' Fn']. rewrite E in Fn. rewrite E' in Fn'.
      destruct Fn as (r & rid & Eu & Ea & Er), Fn' as (r' & rid' & Eu' & Ea' & Er'). unfold node_rel. rewrite Ep, Er. split; auto. exists rid'. split; auto.
      destruct W1 as (_ & _ & _ & WR1), W2 as (_ & _ & _ & WR2). destruct (WR1 _ _ Ea) as (d1 & x1 & K1' & _), (WR2 _ _ Ea') as (d2 & x2 & K2' & _).
      exists d1, x1, d2, x2. split; auto. split; auto. eapply (HT _ _ _ _ _ _ _ K1 K2 E E'); [exists r, rid|exists r', rid']; auto.
    - right. destruct Fn as [Ep Fn]. rewrite E in Fn. destruct Fn as (r & rid & Eu & Ea & Er). exists rid. split; auto. split; auto.
      destruct W1 as (_ & _ & _ & WR1). destruct (WR1 _ _ Ea) as (d2 & x2 & K2' & _).
      assert (T2 : T1 k d2 x2). { eapply (HT1 _ _ _ _ K1 E). exists r, rid. auto. }
      destruct (T1_fun _ _ _ _ _ T T2) as [-> ->]. exists d2, x2, d', y. auto.
    - destruct (kid_cell ce2 pd2 s2 W2 C2 _ _ _ K2) as (n' & En' & _ & Fn').
      left. exists n'. split; auto. destruct Fn as [Ep Fn], Fn' as [Ep' Fn']. rewrite E in Fn. rewrite E' in Fn'.
      destruct Fn as [Er Fn], Fn' as [Er' Fn']. unfold node_rel. rewrite Ep, Er. split; auto. split; auto.
      rewrite <- Hgo in Fn'. eapply describes_alike; try eassumption.
      + intros; apply named_name; auto.
      + intros; apply named_name; auto.
      + intros l y0 B. inversion B.
      + intros l x0 B. remember (VArr l) as z. induction B; try discriminate; auto.
      + intros ds Ed. destruct W1 as (_ & _ & W3 & _). destruct (W3 _ _ _ K1) as [[Hd _] _]. apply (doc_ok_map ds). eapply doc_ok_member; eauto.
  Qed.
End States.

(** The same schema compiled twice. *)
Definition schema_like (x : value) : Prop := match x with VBool _ | VMap _ => True | _ => False end.
Definition same_source (d : draft) (x : value) (d' : draft) (y : value) : Prop := d = d' /\ x = y /\ schema_like x.

Lemma describes_same lim re_ok (kid1 kid2 : nat -> draft -> value -> Prop) (named1 named2 : nat -> string -> Prop) h1 h2 d m n n' :
  (forall i k, named1 i k -> prop_name h1 i = Ok k) -> (forall i k, named2 i k -> prop_name h2 i = Ok k) ->
  (forall i d x, kid1 i d x -> schema_like x) -> doc_ok (VMap m) ->
  describes lim re_ok kid1 named1 d m n -> describes lim re_ok kid2 named2 d m n' ->
  body_rel h1 h2 (cells_alike kid1 kid2 same_source) n n'.
Proof.
  intros N1 N2 HS Hd Dn Dn'. pose proof Dn as D0. unfold describes in D0. repeat match goal with H : _ /\ _ |- _ => destruct H end.
  assert (SS : forall i x, kid1 i d x -> same_source d x d x).
  { intros i x K. split; auto. split; auto. eapply HS; eauto. }
  assert (FL : forall l ids, Forall2 (fun x id => kid1 id d x) l ids -> Forall2 (fun x y => same_source d x d y) l l).
  { induction 1; constructor; eauto. }
  assert (SO : forall k r, opt_ok kid1 d m k r -> both (fun x y => same_source d x d y) (assoc k m) (assoc k m)).
  { intros k r. unfold opt_ok. destruct (assoc k m); [|constructor]. intros (i & _ & K). constructor. eauto. }
  assert (SA : forall k r, addl_ok kid1 d m k r -> both (addl_part (fun x y => same_source d x d y)) (assoc k m) (assoc k m)).
  { intros k r. unfold addl_ok. destruct (assoc k m) as [x|]; [|constructor]. intros H'. constructor.
    destruct x; try (destruct H' as (i & _ & K); destruct (HS _ _ _ K); fail); constructor. destruct H' as (i & _ & K). eauto. }
  assert (SL : forall k r, schemas_ok kid1 d m k r -> both (arr_part (fun x y => same_source d x d y)) (assoc k m) (assoc k m)).
  { intros k r. unfold schemas_ok. destruct (assoc k m) as [x|]; [|constructor]. destruct x; try tauto. intros H'. constructor. constructor. eauto. }
  assert (MM : forall (P : value -> Prop) (Q : value -> value -> Prop) es ps, (forall x, P x -> Q x x) -> Permutation ps es -> Forall (fun e => P (snd e)) es -> map_part Q (VMap ps) (VMap ps)).
  { intros P Q es ps HPQ HP HF. econstructor; [apply Permutation_refl|]. assert (HF' : Forall (fun e => P (snd e)) ps) by (eapply Permutation_Forall; [symmetry; exact HP|auto]).
    clear - HPQ HF'. induction HF'; constructor; auto. }
  eapply describes_alike with (m := m) (m' := m); try eassumption.
  - intros l y (_ & _ & F). exact F.
  - intros l y (_ & -> & F). exact F.
  - intros ds Ed. apply (doc_ok_map ds). eapply doc_ok_member; eauto.
  - auto.
  - intros k Hk [G6 G7]. simpl in Hk. repeat (destruct Hk as [<-|Hk]; [|]); try tauto.
    all: repeat match goal with H : gated _ _ (opt_ok _ _ _ ?k _) |- both _ (assoc ?k _) _ =>
      unfold gated in H; first [rewrite (proj2 (since6_ge d)) in H by (apply G6; simpl; auto)|rewrite (proj2 (since7_ge d)) in H by (apply G7; simpl; auto)] end; eauto.
  - intros k Hk. simpl in Hk. destruct Hk as [<-|[<-|[]]]; eauto.
  - intros k Hk. simpl in Hk. destruct Hk as [<-|[<-|[<-|[]]]]; eauto.
  - intros k Hk. simpl in Hk. destruct Hk as [<-|[<-|[]]].
    + match goal with H : props_ok _ _ _ _ _ |- _ => unfold props_ok in H; rename H into HP end. destruct (assoc "properties" m) as [x|]; [|constructor].
      destruct x; try tauto. destruct HP as (es & HP & HF). constructor. apply (MM (fun x => exists i, kid1 i d x) _ es); auto; [intros x (i & K); eauto|].
      clear - HF. induction HF as [|a b ? ? [K _]]; constructor; eauto.
    + match goal with H : pats_ok _ _ _ _ _ |- _ => unfold pats_ok in H; rename H into HP end. destruct (assoc "patternProperties" m) as [x|]; [|constructor].
      destruct x; try tauto. destruct HP as (es & HP & HF). constructor. apply (MM (fun x => exists i, kid1 i d x) _ es); auto; [intros x (i & K); eauto|].
      clear - HF. induction HF as [|a b ? ? (_ & _ & K)]; constructor; eauto.
  - match goal with H : items_ok _ _ _ _ _ |- _ => unfold items_ok in H; rename H into HP end. destruct (assoc "items" m) as [x|]; constructor.
    assert (X : (exists l, x = VArr l) \/ (forall l, x <> VArr l)) by (destruct x; try (right; discriminate); eauto).
    destruct X as [[l ->]|X]; [apply item_list; destruct HP; eauto|]. apply item_schema. destruct x; try (destruct HP as (_ & i & _ & K); eauto; fail). destruct (X l eq_refl).
  - match goal with H : deps_ok _ _ _ _ |- _ => unfold deps_ok in H; rename H into HP end. destruct (assoc "dependencies" m) as [x|]; [|constructor].
    destruct x; try tauto. destruct HP as (es & ls & HP & HF & _). constructor. apply (MM (fun x => (exists l, x = VArr l) \/ exists i, kid1 i d x) _ es); auto.
    + intros x [[l ->]|(i & K)]; [apply dep_names|apply dep_schema; eauto].
    + clear - HF. induction HF as [|a b ? ? He]; constructor; auto. unfold dep_ok in He. destruct (snd a); try (destruct He as (i & _ & K); right; eauto; fail). left; eauto.
Qed.

Section Twice.
  Variables ce1 ce2 : cenv.
  Hypothesis Hgo : c_go ce1 = c_go ce2.
  Variables pd1 pd2 : policy.
  Variables s1 s2 : cstate.
  Hypothesis W1 : wf ce1 pd1 s1.
  Hypothesis W2 : wf ce2 pd2 s2.
  Hypothesis C1 : forall j, j < length (st_heap s1) -> cell ce1 s1 j.
  Hypothesis C2 : forall j, j < length (st_heap s2) -> cell ce2 s2 j.
  Hypothesis HT : forall i j d m k, kid s1 i d (VMap m) -> kid s2 j d (VMap m) -> assoc "$ref" m = Some (VStr k) ->
    forall d1 x d2 y, target ce1 s1 k d1 x -> target ce2 s2 k d2 y -> d1 = d2 /\ x = y.

  Lemma kid_like ce pd s i d x : wf ce pd s -> (forall j, j < length (st_heap s) -> cell ce s j) -> kid s i d x -> schema_like x.
  Proof. intros W C K. destruct (kid_cell ce pd s W C _ _ _ K) as (n & _ & _ & F). destruct x; simpl; auto. Qed.

  Lemma cells_same i j n : cells_alike (kid s1) (kid s2) same_source i j -> nth_error (st_heap s1) i = Some n ->
    (exists n', nth_error (st_heap s2) j = Some n' /\ node_rel (st_heap s1) (st_heap s2) (cells_alike (kid s1) (kid s2) same_source) n n') \/
    (exists i', n_pass n = None /\ n_ref n = Some i' /\ cells_alike (kid s1) (kid s2) same_source i' j).
  Proof.
    intros (d & x & d' & y & K1 & K2 & <- & <- & _) En. left.
    destruct (kid_cell ce1 pd1 s1 W1 C1 _ _ _ K1) as (n0 & En0 & _ & Fn). assert (n0 = n) by congruence. subst n0. clear En0.
    destruct (kid_cell ce2 pd2 s2 W2 C2 _ _ _ K2) as (n' & En' & _ & Fn'). exists n'. split; auto. unfold node_rel.
    destruct x as [|b| | | | |m|]; try tauto.
    - destruct Fn as [_ Fn], Fn' as [_ Fn']. rewrite Fn. auto.
    - destruct Fn as [Ep Fn], Fn' as [Ep' Fn']. rewrite Ep. split; auto. destruct (assoc "$ref" m) as [x|] eqn:E.
      + destruct x as [| | | |k| | |]; try tauto. destruct Fn as (r & rid & Eu & Ea & Er), Fn' as (r' & rid' & Eu' & Ea' & Er'). rewrite Er. exists rid'. split; auto.
        destruct W1 as (_ & _ & _ & WR1), W2 as (_ & _ & _ & WR2). destruct (WR1 _ _ Ea) as (d1 & x1 & K1' & _), (WR2 _ _ Ea') as (d2 & x2 & K2' & _).
        exists d1, x1, d2, x2. split; auto. split; auto.
        destruct (HT _ _ _ _ _ K1 K2 E d1 x1 d2 x2) as [-> ->]; [exists r, rid; auto|exists r', rid'; auto|]. split; auto. split; auto.
        exact (kid_like ce1 pd1 s1 _ _ _ W1 C1 K1').
      + destruct Fn as [Er Fn], Fn' as [Er' Fn']. rewrite Er. split; auto. rewrite <- Hgo in Fn'.
        eapply describes_same; try eassumption.
        * intros; apply named_name; auto.
        * intros; apply named_name; auto.
        * intros ? ? ?. apply (kid_like ce1 pd1 s1 _ _ _ W1 C1).
        * destruct W1 as (_ & _ & W3 & _). destruct (W3 _ _ _ K1) as [[Hd _] _]. exact Hd.
  Qed.
End Twice.
