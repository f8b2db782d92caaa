(** parseReferences makes a document absolute and registers its identifiers. *)
From Verif Require Export SpecResolve PoolDocs CompileSem ValidateTerm.
From Coq Require Import Lia.
Open Scope nat_scope.

(** *** Rewriting a map in place, in any order *)
Definition put {A} (f : string -> A -> A) (acc : list (string * A)) (e : string * A) : list (string * A) :=
  aset (fst e) (f (fst e) (snd e)) acc.
Lemma aset_present {A} k (x : A) acc : NoDup (map fst acc) -> In k (map fst acc) ->
  aset k x acc = map (fun e => if String.eqb k (fst e) then (k, x) else e) acc.
Proof.
  induction acc as [|[k' y] acc IH]; simpl; [tauto|]. intros N H. inversion N as [|? ? Hn N']; subst.
  destruct (String.eqb_spec k k').
  - subst. f_equal. symmetry. rewrite <- (map_id acc) at 2. apply map_ext_in. intros e He.
    destruct (String.eqb_spec k' (fst e)); auto. exfalso. apply Hn. subst. apply in_map. auto.
  - f_equal. apply IH; auto. destruct H; congruence.
Qed.
Lemma put_all {A} (f : string -> A -> A) es : forall acc, NoDup (map fst acc) -> NoDup (map fst es) ->
  (forall k, In k (map fst es) -> In k (map fst acc)) ->
  fold_left (put f) es acc = map (fun e => match assoc (fst e) es with Some x => (fst e, f (fst e) x) | None => e end) acc.
Proof.
  induction es as [|[k x] es IH]; intros acc N Ne H.
  - simpl. rewrite <- (map_id acc) at 1. apply map_ext. auto.
  - cbn [fold_left]. unfold put at 2. cbn [fst snd]. inversion Ne as [|? ? Hn Ne']; subst. rewrite IH; auto.
    + rewrite aset_present; auto; [|apply H; simpl; auto]. rewrite map_map. apply map_ext_in. intros e He. cbn [assoc].
      destruct (String.eqb_spec (fst e) k) as [E|E].
      * rewrite <- E, String.eqb_refl. cbn [fst]. rewrite E.
        assert (Ea : assoc k es = None) by (apply assoc_None; auto). rewrite Ea. reflexivity.
      * destruct (String.eqb_spec k (fst e)); [congruence|]. reflexivity.
    + apply aset_NoDup. auto.
    + intros k' Hk. apply aset_keys_in. right. apply H. simpl. auto.
Qed.
Lemma put_perm {A} (f : string -> A -> A) m es : NoDup (map fst m) -> Permutation m es ->
  fold_left (put f) es m = map (fun e => (fst e, f (fst e) (snd e))) m.
Proof.
  intros N P. assert (Ne : NoDup (map fst es)) by (eapply Permutation_NoDup; [apply Permutation_map; exact P|auto]).
  rewrite put_all; auto.
  - apply map_ext_in. intros [k x] He. cbn [fst snd]. assert (E : assoc k es = Some x); [|rewrite E; auto].
    assert (Hi : In (k, x) es) by (eapply Permutation_in; eauto). clear - Ne Hi.
    induction es as [|[k' y] es IH]; [destruct Hi|]. simpl in *. inversion Ne as [|? ? Hn Ne']; subst. destruct Hi as [E|Hi].
    + injection E as -> ->. rewrite String.eqb_refl. auto.
    + destruct (String.eqb_spec k k'); auto. subst. exfalso. apply Hn. change k' with (fst (k', x)). apply in_map. auto.
  - intros k Hk. eapply Permutation_in; [apply Permutation_map, Permutation_sym; exact P|exact Hk].
Qed.

(** *** Pools with identifiers added *)
Definition adds (dr : option draft) (p : pool) (ids : list (string * value)) (p' : pool) : Prop :=
  forall r e, assoc r p' = Some e <-> assoc r p = Some e \/ exists x, In (r, x) ids /\ e = Spd x dr.
Definition fresh (p : pool) (ids : list (string * value)) : Prop :=
  NoDup (map fst ids) /\ forall r, In r (map fst ids) -> assoc r p = None.

Lemma adds_nil dr p : adds dr p [] p.
Proof. intros r e. split; [auto|]. intros [H|(x & [] & _)]; auto. Qed.
Lemma adds_app dr p a q b t : adds dr p a q -> adds dr q b t -> adds dr p (a ++ b) t.
Proof.
  intros H1 H2 r e. rewrite (H2 r e), (H1 r e). split.
  - intros [[H|(x & Hx & E)]|(x & Hx & E)]; auto; right; exists x; split; auto; apply in_or_app; auto.
  - intros [H|(x & Hx & E)]; auto. apply in_app_or in Hx. destruct Hx; eauto.
Qed.
Lemma adds_perm dr p a b q : Permutation a b -> adds dr p a q -> adds dr p b q.
Proof.
  intros P H r e. rewrite (H r e). split; intros [K|(x & Hx & E)]; auto; right; exists x; split; auto.
  - eapply Permutation_in; eauto.
  - eapply Permutation_in; [apply Permutation_sym; eauto|auto].
Qed.
Lemma NoDup_app_parts {A} (a b : list A) : NoDup (a ++ b) -> NoDup a /\ NoDup b /\ forall x, In x a -> ~ In x b.
Proof.
  induction a as [|x a IH]; simpl; intros N; [repeat split; auto; constructor|]. inversion N as [|? ? Hn N']; subst. destruct (IH N') as (H1 & H2 & H3).
  split; [constructor; auto; intros H; apply Hn, in_or_app; auto|]. split; auto. intros y [-> | Hy] Hb; [apply Hn, in_or_app; auto|eapply H3; eauto].
Qed.
Lemma fresh_app_l p a b : fresh p (a ++ b) -> fresh p a.
Proof.
  intros [N H]. rewrite map_app in *. split; [apply NoDup_app_parts in N; apply N|]. intros r Hr. apply H. apply in_or_app. auto.
Qed.
Lemma fresh_app_r dr p a b q : fresh p (a ++ b) -> adds dr p a q -> fresh q b.
Proof.
  intros [N H] HA. rewrite map_app in *. split; [apply NoDup_app_parts in N; apply N|]. intros r Hr.
  destruct (assoc r q) as [e|] eqn:E; auto. apply HA in E. destruct E as [E|(x & Hx & _)].
  - rewrite H in E; [discriminate|apply in_or_app; auto].
  - exfalso. apply NoDup_app_parts in N. destruct N as (_ & _ & N). apply (in_map fst) in Hx. apply (N _ Hx Hr).
Qed.
Lemma fresh_perm p a b : Permutation a b -> fresh p a -> fresh p b.
Proof.
  intros P [N H]. split; [eapply Permutation_NoDup; [apply Permutation_map; exact P|auto]|].
  intros r Hr. apply H. eapply Permutation_in; [apply Permutation_map, Permutation_sym; exact P|auto].
Qed.

Section Loops.
  Variable rec : oracle -> value -> string -> option draft -> pool -> out prr.
  Variables (b : string) (dr : option draft).

  (** One call behaves. *)
  Definition calls_ok (o : oracle) (x y : value) (ids : list (string * value)) : Prop :=
    forall p, fresh p ids -> exists p', rec o x b dr p = Ok (Prr y p' None) /\ adds dr p ids p'.

  Lemma prr_list_resolves (f : value -> value) (g : value -> list (string * value)) o l :
    (forall i x, In x l -> calls_ok (shift o i) x (f x) (g x)) ->
    forall i p, fresh p (flat_map g l) -> exists p', prr_list rec o i b dr l p = Ok (map f l, p') /\ adds dr p (flat_map g l) p'.
  Proof.
    induction l as [|x l IH]; intros H i p Hf; cbn [prr_list flat_map map] in *.
    - exists p. split; auto. apply adds_nil.
    - destruct (H i x (or_introl eq_refl) p (fresh_app_l _ _ _ Hf)) as (p1 & E1 & A1). rewrite E1. cbn [obind pr_pool pr_doc].
      destruct (IH (fun j y Hy => H j y (or_intror Hy)) (S i) p1 (fresh_app_r _ _ _ _ _ Hf A1)) as (p2 & E2 & A2). rewrite E2. cbn [obind fst snd].
      exists p2. split; auto. eapply adds_app; eauto.
  Qed.
  Lemma prr_map_resolves (f : value -> value) (g : value -> list (string * value)) o es :
    (forall i k x, In (k, x) es -> calls_ok (shift o i) x (f x) (g x)) ->
    forall i m p, fresh p (flat_map (fun e => g (snd e)) es) -> exists p',
      prr_map rec o i b dr es m p = Ok (fold_left (put (fun _ => f)) es m, p') /\ adds dr p (flat_map (fun e => g (snd e)) es) p'.
  Proof.
    induction es as [|[k x] es IH]; intros H i m p Hf; cbn [prr_map flat_map fold_left fst snd] in *.
    - exists p. split; auto. apply adds_nil.
    - destruct (H i k x (or_introl eq_refl) p (fresh_app_l _ _ _ Hf)) as (p1 & E1 & A1). rewrite E1. cbn [obind pr_pool pr_doc].
      destruct (IH (fun j k y Hy => H j k y (or_intror Hy)) (S i) (aset k (f x) m) p1 (fresh_app_r _ _ _ _ _ Hf A1)) as (p2 & E2 & A2). rewrite E2.
      exists p2. split; auto. eapply adds_app; eauto.
  Qed.
  Lemma prr_members_resolves (f : string -> value -> value) (g : string * value -> list (string * value)) o es :
    (forall i k x p, In (k, x) es -> fresh p (g (k, x)) -> exists p',
       prr_member rec (shift o i) b dr k x p = Ok (f k x, p') /\ adds dr p (g (k, x)) p') ->
    forall i m p, fresh p (flat_map g es) -> exists p',
      prr_members rec o i b dr es m p = Ok (fold_left (put f) es m, p') /\ adds dr p (flat_map g es) p'.
  Proof.
    induction es as [|[k x] es IH]; intros H i m p Hf; cbn [prr_members flat_map fold_left fst snd] in *.
    - exists p. split; auto. apply adds_nil.
    - destruct (H i k x p (or_introl eq_refl) (fresh_app_l _ _ _ Hf)) as (p1 & E1 & A1). rewrite E1. cbn [obind fst snd].
      destruct (IH (fun j k y q Hy => H j k y q (or_intror Hy)) (S i) (aset k (f k x) m) p1 (fresh_app_r _ _ _ _ _ Hf A1)) as (p2 & E2 & A2). rewrite E2.
      exists p2. split; auto. eapply adds_app; eauto.
  Qed.
End Loops.

Section Resolves.
  Variable ce : cenv.
  Notation lim := (e_ratlim (c_go ce)).
  Notation resolve := (resolve (u_parse ce) (u_inherits ce)).
  Notation ids_of := (ids_of (u_parse ce) (u_inherits ce)).
  Notation scope := (scope (u_parse ce) (u_inherits ce)).
  Notation new_scope := (new_scope (u_parse ce) (u_inherits ce)).
  Notation absolute := (absolute (u_parse ce) (u_inherits ce)).
  (** Resolving one URL against another does not fail. *)
  Hypothesis Hinh : forall b r s, u_parse ce s = Some r -> u_inherits ce b r <> None.

  Lemma kind_moderate v : doc_ok v -> all_numbers (moderate lim) v ->
    exists k, kind_of lim v = Ok k /\ (kind_eqb k KString = true <-> exists s, v = VStr s).
  Proof.
    intros [Hs P] M. destruct v as [|b|t|f|t|l|m|m]; try discriminate P; cbn [kind_of].
    - eexists; split; [reflexivity|]. simpl. split; [discriminate|intros [? ?]; discriminate].
    - eexists; split; [reflexivity|]. simpl. split; [discriminate|intros [? ?]; discriminate].
    - inversion Hs as [| |? Hj| | | | ]; inversion M as [| | |? Hm| | |]; subst. destruct (proj1 (rat_of_moderate lim t Hj) Hm) as [q ->].
      eexists; split; [reflexivity|]. simpl. split; [discriminate|intros [? ?]; discriminate].
    - eexists; split; [reflexivity|]. simpl. split; eauto.
    - eexists; split; [reflexivity|]. simpl. split; [discriminate|intros [? ?]; discriminate].
    - eexists; split; [reflexivity|]. simpl. split; [discriminate|intros [? ?]; discriminate].
  Qed.

  Lemma declared_id_scope base m : doc_ok (VMap m) -> all_numbers (moderate lim) (VMap m) -> declared_id ce base m = Ok (new_scope base m).
  Proof.
    intros Hd Hm. unfold declared_id, new_scope, id_text, existsMapKey.
    assert (A : forall k, match assoc k m with
      | None => Ok None
      | Some v => do b <- isKind lim v [KString]; if negb b then Ok None else
          match v with VStr s => match u_parse ce s with None => Ok None | Some r => match u_inherits ce base r with Some a => Ok (Some a) | None => Panic end end | _ => Panic end
      end = Ok (match match assoc k m with Some (VStr s) => Some s | _ => None end with
                | Some s => match u_parse ce s with Some r => u_inherits ce base r | None => None end | None => None end)).
    { intros k. destruct (assoc k m) as [v|] eqn:E; auto. assert (Hv : doc_ok v) by (eapply doc_ok_member; eauto).
      assert (Mv : all_numbers (moderate lim) v) by (inversion Hm as [| | | | | |? F]; subst; rewrite Forall_forall in F; apply assoc_In in E; apply (F _ E)).
      destruct (kind_moderate v Hv Mv) as (kd & Ek & Hk). unfold isKind. rewrite Ek. cbn [obind existsb]. rewrite Bool.orb_false_r.
      destruct (kind_eqb kd KString).
      - destruct (proj1 Hk eq_refl) as [s ->]. simpl. destruct (u_parse ce s) as [r|] eqn:Ep; auto.
        destruct (u_inherits ce base r) eqn:Ei; auto. destruct (Hinh base r s Ep Ei).
      - cbn [negb]. destruct v; auto. destruct Hk as [_ Hk]. discriminate Hk. eauto. }
    pose proof (A "id") as A1. pose proof (A "$id") as A2. cbv zeta. destruct (assoc "id" m) as [v|] eqn:E; [|exact A2].
    rewrite E. rewrite A1. destruct v; auto.
  Qed.

  Definition abs_str (b : string) (x : value) : value := match x with VStr s => VStr (absolute b s) | _ => x end.
  Lemma absolute_ref_map base m : doc_ok (VMap m) -> all_numbers (moderate lim) (VMap m) ->
    absolute_ref ce base m = Ok (map (fun e => (fst e, if String.eqb (fst e) "$ref" then abs_str base (snd e) else snd e)) m).
  Proof.
    intros Hd Hm. pose proof (doc_ok_map m Hd) as [N _]. unfold absolute_ref.
    assert (ID : (forall s, assoc "$ref" m <> Some (VStr s)) \/ (exists s, assoc "$ref" m = Some (VStr s) /\ absolute base s = s) ->
      m = map (fun e => (fst e, if String.eqb (fst e) "$ref" then abs_str base (snd e) else snd e)) m).
    { intros H. rewrite <- (map_id m) at 1. apply map_ext_in. intros [k x] He. cbn [fst snd]. destruct (String.eqb_spec k "$ref"); auto. subst.
      apply assoc_NoDup in He; auto. destruct x; auto. destruct H as [H|(s' & E & H)]; [destruct (H s He)|]. rewrite He in E. injection E as ->. unfold abs_str. rewrite H. auto. }
    destruct (assoc "$ref" m) as [v|] eqn:E; [|f_equal; apply ID; left; discriminate].
    assert (Hv : doc_ok v) by (eapply doc_ok_member; eauto).
    assert (Mv : all_numbers (moderate lim) v) by (inversion Hm as [| | | | | |? F]; subst; rewrite Forall_forall in F; apply assoc_In in E; apply (F _ E)).
    destruct (kind_moderate v Hv Mv) as (kd & Ek & Hk). unfold isKind. rewrite Ek. cbn [obind existsb]. rewrite Bool.orb_false_r.
    destruct (kind_eqb kd KString); cbn [negb].
    - destruct (proj1 Hk eq_refl) as [s ->]. unfold absolute in *. destruct (u_parse ce s) as [r|] eqn:Ep.
      + destruct (u_inherits ce base r) as [a|] eqn:Ei.
        * f_equal. rewrite aset_present; auto.
          -- apply map_ext_in. intros [k x] He. cbn [fst snd]. destruct (String.eqb_spec "$ref" k); destruct (String.eqb_spec k "$ref"); try congruence.
             subst. apply assoc_NoDup in He; auto. rewrite E in He. injection He as <-. unfold abs_str, SpecResolve.absolute. rewrite Ep, Ei. auto.
          -- apply assoc_In in E. apply (in_map fst) in E. exact E.
        * f_equal. apply ID. right. exists s. rewrite Ep, Ei. auto.
      + f_equal. apply ID. right. exists s. rewrite Ep. auto.
    - f_equal. apply ID. left. intros s [= ->]. destruct Hk as [_ Hk]. discriminate Hk. eauto.
  Qed.

  (** What becomes of one member. *)
  Definition res_member (b : string) (k : string) (x : value) : value :=
    if is_literal k then x
    else if is_schema_map k then
      match x with
      | VMap c => VMap (map (fun e' => (fst e', resolve b (snd e'))) c)
      | _ => x
      end
    else
      match x with
      | VStr s => if String.eqb k "$ref" then VStr (absolute b s) else VStr s
      | _ => resolve b x
      end.
  Definition ids_member (b : string) (e : string * value) : list (string * value) :=
    if is_literal (fst e) then []
    else if is_schema_map (fst e) then
      match snd e with
      | VMap c => flat_map (fun e' => ids_of b (snd e')) c
      | _ => []
      end
    else ids_of b (snd e).

  Lemma resolve_map base m : resolve base (VMap m) = VMap (map (fun e => (fst e, res_member (scope base m) (fst e) (snd e))) m).
  Proof. reflexivity. Qed.
  Lemma ids_map base m : ids_of base (VMap m) =
    match new_scope base m with Some r => [(r, resolve base (VMap m))] | None => [] end ++ flat_map (ids_member (scope base m)) m.
  Proof. reflexivity. Qed.
  Lemma flat_map_perm {A B} (f : A -> list B) l l' : Permutation l l' -> Permutation (flat_map f l) (flat_map f l').
  Proof. apply Permutation_flat_map. Qed.

  Theorem parseReferencesRecursive_resolves k : forall o v base dr p, vsize v < k -> fair o -> doc_ok v -> all_numbers (moderate lim) v ->
    fresh p (ids_of base v) ->
    exists p', parseReferencesRecursive ce k o v base dr p = Ok (Prr (resolve base v) p' None) /\ adds dr p (ids_of base v) p'.
  Proof.
    induction k as [|k IH]; intros o v base dr p Hk F Hd Hn Hf; [lia|]. cbn [parseReferencesRecursive]. unfold parseReferencesNode.
    destruct v as [| | | | |l|m|]; try (exists p; split; [reflexivity|apply adds_nil]).
    - destruct (prr_list_resolves (parseReferencesRecursive ce k) base dr (resolve base) (ids_of base) o l) with (i := 0) (p := p) as (p' & E & A).
      + intros i x Hx q Hq. apply IH; auto.
        * apply vsize_item in Hx. lia.
        * apply shift_fair; auto.
        * apply doc_ok_arr in Hd. rewrite Forall_forall in Hd. apply Hd; auto.
        * inversion Hn as [| | | | |? G|]; subst. rewrite Forall_forall in G. auto.
      + exact Hf.
      + rewrite E. cbn [obind fst snd]. exists p'. split; auto.
    - rewrite declared_id_scope; auto. cbn [obind]. rewrite ids_map in Hf. rewrite ids_map, resolve_map.
      pose proof (doc_ok_map m Hd) as [N HD].
      assert (HM : Forall (fun e => all_numbers (moderate lim) (snd e)) m) by (inversion Hn; auto).
      (* the loop over the members, in the scope b *)
      assert (LOOP : forall b p1 m1, m1 = map (fun e => (fst e, if String.eqb (fst e) "$ref" then abs_str b (snd e) else snd e)) m ->
        fresh p1 (flat_map (ids_member b) m) -> exists p',
        prr_members (parseReferencesRecursive ce k) (shift o 1) 0 b dr (pick (shift o 0) m1) m1 p1 =
          Ok (map (fun e => (fst e, res_member b (fst e) (snd e))) m, p') /\ adds dr p1 (flat_map (ids_member b) m) p').
      { intros b p1 m1 Em1 Hf1.
        set (f := fun (k : string) (x : value) => match x with VStr s => VStr s | x => res_member b k x end).
        assert (P : Permutation m1 (pick (shift o 0) m1)) by (apply pick_perm, shift_fair; auto).
        assert (N1 : NoDup (map fst m1)). { rewrite Em1, map_map. cbn [fst]. exact N. }
        assert (EI : flat_map (ids_member b) m1 = flat_map (ids_member b) m).
        { rewrite Em1. rewrite !flat_map_concat_map, map_map. f_equal. apply map_ext. intros [kk x]. unfold ids_member. cbn [fst snd].
          destruct (is_literal kk); auto. destruct (String.eqb_spec kk "$ref"); auto. subst. destruct x; auto. }
        assert (PI : Permutation (flat_map (ids_member b) m) (flat_map (ids_member b) (pick (shift o 0) m1))).
        { rewrite <- EI. apply flat_map_perm. exact P. }
        destruct (prr_members_resolves (parseReferencesRecursive ce k) b dr f (ids_member b) (shift o 1) (pick (shift o 0) m1)) with (i := 0) (m := m1) (p := p1) as (p' & E & A).
        - intros i kk x q Hin Hq. assert (Hin1 : In (kk, x) m1) by (eapply Permutation_in; [apply Permutation_sym; exact P|exact Hin]).
          rewrite Em1 in Hin1. apply in_map_iff in Hin1. destruct Hin1 as ([k0 x0] & E0 & Hin0). cbn [fst snd] in E0. injection E0 as <- <-.
          rewrite Forall_forall in HD, HM. pose proof (HD _ Hin0) as HD0. pose proof (HM _ Hin0) as HM0. cbn [snd] in HD0, HM0.
          assert (Hs0 : vsize x0 < k) by (apply vsize_member in Hin0; lia).
          unfold prr_member. change literal_key with is_literal. change map_key with is_schema_map. unfold ids_member in *. cbn [fst snd] in *.
          destruct (is_literal k0) eqn:El.
          { exists q. split; [|apply adds_nil]. unfold f, res_member. rewrite El. destruct (String.eqb_spec k0 "$ref"); [subst; discriminate El|]. destruct x0; auto. }
          destruct (is_schema_map k0) eqn:Es.
          { destruct (String.eqb_spec k0 "$ref"); [subst; discriminate Es|].
            destruct x0 as [| | | | | |c|]; try (exists q; split; [unfold f, res_member; rewrite ?El, ?Es; reflexivity|apply adds_nil]).
            pose proof (doc_ok_map c HD0) as [Nc HDc]. assert (HMc : Forall (fun e => all_numbers (moderate lim) (snd e)) c) by (inversion HM0; auto).
            rewrite Forall_forall in HDc, HMc.
            assert (Pc : Permutation c (pick (shift (shift (shift o 1) i) 0) c)) by (apply pick_perm; repeat apply shift_fair; auto).
            destruct (prr_map_resolves (parseReferencesRecursive ce k) b dr (resolve b) (ids_of b) (shift (shift (shift o 1) i) 1) (pick (shift (shift (shift o 1) i) 0) c)) with (i := 0) (m := c) (p := q) as (p' & E & A).
            - intros j kc xc Hc q' Hq'. assert (Hc' : In (kc, xc) c) by (eapply Permutation_in; [apply Permutation_sym; exact Pc|exact Hc]).
              apply IH; auto; [|repeat apply shift_fair; auto|apply (HDc _ Hc')|apply (HMc _ Hc')]. apply vsize_member in Hc'. lia.
            - eapply fresh_perm; [|exact Hq]. apply (flat_map_perm (fun e => ids_of b (snd e))). exact Pc.
            - rewrite E. cbn [obind fst snd]. exists p'. split.
              + unfold f, res_member. rewrite El, Es. rewrite (put_perm (fun _ => resolve b) c); auto.
              + eapply adds_perm; [|exact A]. apply (flat_map_perm (fun e => ids_of b (snd e))). apply Permutation_sym. exact Pc. }
          destruct (String.eqb_spec k0 "$ref") as [->|Hne].
          + assert (DS : (exists s, x0 = VStr s) \/ (forall s, x0 <> VStr s)) by (destruct x0; eauto; right; discriminate).
            destruct DS as [[s ->]|NS].
            * exists q. split; [|apply adds_nil]. destruct k; [lia|]. reflexivity.
            * assert (EX : abs_str b x0 = x0) by (destruct x0; auto; destruct (NS s eq_refl)). rewrite EX in Hq, Hin |- *.
              destruct (IH (shift (shift o 1) i) x0 b dr q) as (p' & E & A); auto; [repeat apply shift_fair; auto|]. rewrite E. cbn [obind pr_doc pr_pool].
              exists p'. split; auto. unfold f, res_member. rewrite El, Es. destruct x0; auto; destruct (NS _ eq_refl).
          + destruct (IH (shift (shift o 1) i) x0 b dr q) as (p' & E & A); auto; [repeat apply shift_fair; auto|]. rewrite E. cbn [obind pr_doc pr_pool].
            exists p'. split; auto. unfold f, res_member. rewrite El, Es. destruct x0; auto.
        - eapply fresh_perm; [exact PI|exact Hf1].
        - exists p'. rewrite E. split.
          + f_equal. f_equal. rewrite (put_perm f m1); auto. rewrite Em1, map_map. apply map_ext. intros [kk x]. cbn [fst snd]. f_equal.
            unfold f, res_member. destruct (String.eqb_spec kk "$ref").
            * subst. cbn. destruct x; auto.
            * destruct x; auto. destruct (is_literal kk); auto. destruct (is_schema_map kk); auto.
          + eapply adds_perm; [|exact A]. apply Permutation_sym. exact PI. }
      unfold scope. destruct (new_scope base m) as [r|] eqn:Es.
      + unfold scope in Hf. rewrite Es in Hf. assert (Hr : assoc r p = None) by (apply Hf; simpl; auto). rewrite Hr.
        rewrite absolute_ref_map by auto. cbn [obind].
        assert (Hf1 : fresh (aset r (Spd (VMap m) dr) p) (flat_map (ids_member r) m)).
        { destruct Hf as [Nf Hf]. simpl in Nf, Hf. inversion Nf as [|? ? Hni Nf']; subst. split; auto. intros r' Hr'. rewrite assoc_aset.
          destruct (String.eqb_spec r' r); [subst; destruct (Hni Hr')|auto]. }
        destruct (LOOP r _ _ eq_refl Hf1) as (p' & E & A). rewrite E. cbn [obind fst snd]. eexists. split; [reflexivity|].
        intros r' e. rewrite assoc_aset. destruct (String.eqb_spec r' r) as [->|Hne].
        * split.
          -- intros [= <-]. right. eexists. split; [left; reflexivity|reflexivity].
          -- intros [H|(x & [Hx|Hx] & ->)]; [congruence|injection Hx as <-; auto|]. exfalso. destruct Hf as [Nf _]. simpl in Nf. inversion Nf as [|? ? Hni _]; subst.
             apply Hni. change r with (fst (r, x)). apply in_map. auto.
        * rewrite (A r' e), assoc_aset. destruct (String.eqb_spec r' r); [congruence|]. split.
          -- intros [H|(x & Hx & ->)]; auto. right. exists x. split; auto. right. auto.
          -- intros [H|(x & [Hx|Hx] & ->)]; auto; [congruence|]. right. eauto.
      + unfold scope in Hf. rewrite Es in Hf. rewrite absolute_ref_map by auto. cbn [obind]. simpl in Hf.
        destruct (LOOP base p _ eq_refl Hf) as (p' & E & A). rewrite E. cbn [obind fst snd]. exists p'. split; auto.
  Qed.
End Resolves.
