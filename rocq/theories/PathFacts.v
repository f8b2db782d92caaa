(** What [resolve] does to a document, place by place. *)
From Verif Require Export SpecPaths PoolResolve.
From Coq Require Import Lia.
Open Scope nat_scope.

Section Paths.
  Variable parse : string -> option string.
  Variable inherits : string -> string -> option string.
  Notation resolve := (resolve parse inherits).
  Notation ids_of := (ids_of parse inherits).
  Notation scope := (scope parse inherits).
  Notation new_scope := (new_scope parse inherits).
  Notation absolute := (absolute parse inherits).
  Notation position := (position parse inherits).

  Lemma assoc_map {A B} (f : string -> A -> B) k m : assoc k (map (fun e => (fst e, f (fst e) (snd e))) m) = option_map (f k) (assoc k m).
  Proof.
    induction m as [|[n x] m IH]; [reflexivity|]. cbn [map assoc fst snd]. destruct (String.eqb_spec k n); [subst; reflexivity|auto].
  Qed.
  Definition here (b : string) (k : string) (x : value) : value :=
    if is_literal k then x
    else if is_schema_map k then match x with VMap c => VMap (map (fun e' => (fst e', resolve b (snd e'))) c) | _ => x end
    else match x with VStr s => if String.eqb k "$ref" then VStr (absolute b s) else VStr s | _ => resolve b x end.
  Lemma resolve_member base m k : assoc k (match resolve base (VMap m) with VMap m' => m' | _ => [] end) = option_map (here (scope base m) k) (assoc k m).
  Proof. cbn [SpecResolve.resolve]. apply (assoc_map (here (scope base m))). Qed.
  Lemma resolve_object base m : exists m', resolve base (VMap m) = VMap m' /\ map fst m' = map fst m /\ forall k, assoc k m' = option_map (here (scope base m) k) (assoc k m).
  Proof.
    pose proof (resolve_member base m) as H. cbn [SpecResolve.resolve] in *. eexists. split; [reflexivity|]. split; [rewrite map_map; reflexivity|exact H].
  Qed.
  Lemma resolve_named b c n : assoc n (map (fun e' => (fst e', resolve b (snd e'))) c) = option_map (resolve b) (assoc n c).
  Proof. apply (assoc_map (fun _ => resolve b)). Qed.

  Lemma resolve_top base v : top (resolve base v) = top v.
  Proof. destruct v; try reflexivity; cbn [SpecResolve.resolve top]; rewrite map_map; reflexivity. Qed.
  Lemma here_plain b k x : is_literal k = false -> is_schema_map k = false -> (k = "$ref" -> forall s, x <> VStr s) -> here b k x = resolve b x.
  Proof.
    intros H1 H2 H3. unfold here. rewrite H1, H2. destruct x as [|b0|t|f|t|l|o|o]; auto. destruct (String.eqb_spec k "$ref"); auto. subst. destruct (H3 eq_refl t eq_refl).
  Qed.

  (** Where a schema stands, the resolved schema stands afterwards. *)
  Lemma position_resolved v : forall base p b x, position base v p b x ->
    (forall s, x <> VStr s) -> at_path p (resolve base v) = Some (resolve b x).
  Proof.
    intros base p b x P. induction P as [base v|base l n y p b x E P IH|base m k y p b x E L S P IH|base m k c n y p b x E S En P IH]; intros NS.
    - reflexivity.
    - cbn [SpecResolve.resolve at_path]. rewrite nth_error_map, E. cbn [option_map]. auto.
    - destruct (resolve_object base m) as (m' & -> & _ & Hm). cbn [at_path]. rewrite Hm, E. cbn [option_map]. rewrite here_plain; auto.
      intros -> s ->. inversion P; subst. apply (NS s). reflexivity.
    - destruct (resolve_object base m) as (m' & -> & _ & Hm). cbn [at_path]. rewrite Hm, E. cbn [option_map]. unfold here.
      assert (L : is_literal k = false). { unfold is_literal, is_schema_map in *. destruct (String.eqb_spec k "const"); [subst; discriminate|]. destruct (String.eqb_spec k "enum"); [subst; discriminate|auto]. }
      rewrite L, S. rewrite resolve_named, En. cbn [option_map]. auto.
  Qed.

  Lemma schema_map_not_literal k : is_schema_map k = true -> is_literal k = false.
  Proof.
    unfold is_literal, is_schema_map. destruct (String.eqb_spec k "const"); [subst; discriminate|]. destruct (String.eqb_spec k "enum"); [subst; discriminate|auto].
  Qed.

  (** The reference of the schema at a place is made absolute. *)
  Lemma reference_resolved v base p b m s : position base v p b (VMap m) -> assoc "$ref" m = Some (VStr s) ->
    at_path (p ++ [Key "$ref"]) (resolve base v) = Some (VStr (absolute (scope b m) s)).
  Proof.
    intros P E. assert (H : at_path p (resolve base v) = Some (resolve b (VMap m))) by (eapply position_resolved; eauto; discriminate).
    assert (A : forall q v', at_path p v' = Some q -> at_path (p ++ [Key "$ref"]) v' = at_path [Key "$ref"] q).
    { clear. induction p as [|st p IH]; intros q v' E; [injection E as ->; reflexivity|]. cbn [app]. destruct st as [k|n]; cbn [at_path] in E |- *.
      - destruct v'; try discriminate. destruct (assoc k m); [|discriminate]. apply IH. auto.
      - destruct v'; try discriminate. destruct (nth_error l n); [|discriminate]. apply IH. auto. }
    rewrite (A _ _ H). destruct (resolve_object b m) as (m' & -> & _ & Hm). cbn [at_path]. rewrite Hm, E. reflexivity.
  Qed.
  Lemma at_path_app p q v : at_path (p ++ q) v = match at_path p v with Some x => at_path q x | None => None end.
  Proof.
    revert v. induction p as [|st p IH]; intros v; [reflexivity|]. cbn [app]. destruct st as [k|n]; cbn [at_path]; destruct v; auto.
    - destruct (assoc k m); auto.
    - destruct (nth_error l n); auto.
  Qed.
  (** What stands below "const" and "enum" is untouched. *)
  Lemma literal_untouched v base p b m k x : position base v p b (VMap m) -> is_literal k = true -> assoc k m = Some x ->
    at_path (p ++ [Key k]) (resolve base v) = Some x.
  Proof.
    intros P L E. rewrite at_path_app. rewrite (position_resolved v base p b (VMap m)); [|auto|discriminate].
    destruct (resolve_object b m) as (m' & -> & _ & Hm). cbn [at_path]. rewrite Hm, E. cbn [option_map]. unfold here. rewrite L. reflexivity.
  Qed.

  (** Everything else keeps its place and its value. *)
  Lemma rest_untouched p : forall v base,
    (forall q b m s, position base v q b (VMap m) -> assoc "$ref" m = Some (VStr s) -> p <> q ++ [Key "$ref"]) ->
    option_map top (at_path p (resolve base v)) = option_map top (at_path p v).
  Proof.
    induction p as [p IH] using (well_founded_induction (Wf_nat.well_founded_ltof _ (@length pstep))). unfold Wf_nat.ltof in IH. intros v base H.
    destruct p as [|[k|n] p].
    - cbn [at_path option_map]. rewrite resolve_top. reflexivity.
    - destruct v as [|b|t|f|t|l|m|o]; try reflexivity. destruct (resolve_object base m) as (m' & -> & _ & Hm). cbn [at_path]. rewrite Hm.
      destruct (assoc k m) as [x|] eqn:E; [|reflexivity]. cbn [option_map].
      destruct (is_literal k) eqn:L; [unfold here; rewrite L; reflexivity|]. destruct (is_schema_map k) eqn:S.
      + unfold here. rewrite L, S. destruct x as [|b|t|f|t|l|c|o]; auto. destruct p as [|[n|n] p]; cbn [at_path]; auto.
        * cbn [option_map top]. rewrite map_map. reflexivity.
        * rewrite resolve_named. destruct (assoc n c) as [x|] eqn:En; [|reflexivity]. cbn [option_map]. apply IH; [cbn [length]; lia|].
          intros q b m0 s P Er ->. refine (H (Key k :: Key n :: q) b m0 s _ Er eq_refl). eapply pos_named; eauto.
      + assert (D : (exists s, k = "$ref" /\ x = VStr s) \/ (k = "$ref" -> forall s, x <> VStr s)).
        { destruct (String.eqb_spec k "$ref"); [|right; tauto]. destruct x; try (right; discriminate). left. eauto. }
        destruct D as [(s & -> & ->)|D].
        * destruct p as [|st p]; [exfalso; exact (H [] base m s (pos_here _ _ _ _) E eq_refl)|]. unfold here. rewrite L, S. cbn [String.eqb]. destruct st; reflexivity.
        * rewrite here_plain; auto. apply IH; [cbn [length]; lia|]. intros q b m0 s P Er ->. refine (H (Key k :: q) b m0 s _ Er eq_refl). eapply pos_member; eauto.
    - destruct v as [|b|t|f|t|l|m|o]; try reflexivity. cbn [SpecResolve.resolve at_path]. rewrite nth_error_map. destruct (nth_error l n) as [x|] eqn:E; [|reflexivity].
      cbn [option_map]. apply IH; [cbn [length]; lia|]. intros q b m0 s P Er ->. refine (H (Index n :: q) b m0 s _ Er eq_refl). eapply pos_element; eauto.
  Qed.

  (** No schema stands below "const" or "enum". *)
  Lemma no_schema_below v base q b m : position base v q b (VMap m) -> forall k p b' x, position base v (q ++ Key k :: p) b' x -> is_literal k = false.
  Proof.
    remember (VMap m) as y eqn:Ey. intros P. induction P as [base v|base l n z q b y E P IH|base m0 k0 z q b y E L S P IH|base m0 k0 c n z q b y E S En P IH]; intros k p b' x P2; cbn [app] in P2.
    - subst v. inversion P2; subst; auto using schema_map_not_literal.
    - inversion P2; subst. assert (z = x0) by congruence. subst. eapply IH; eauto.
    - inversion P2; subst; [|congruence]. assert (z = x0) by congruence. subst. eapply IH; eauto.
    - inversion P2; subst; [congruence|]. assert (c = c0) by congruence. subst. assert (z = x0) by congruence. subst. eapply IH; eauto.
  Qed.

  (** The identifiers: exactly those of the schemas in place. *)
  Lemma ids_positions_size n : forall v base r x, vsize v < n -> doc_ok v -> (In (r, x) (ids_of base v) <->
    exists p b m, position base v p b (VMap m) /\ new_scope b m = Some r /\ x = resolve b (VMap m)).
  Proof.
    induction n as [|n IH]; intros v base r x Hn Hd; [lia|].
    destruct v as [|b|t|f|t|l|m|o]; try (split; [intros []|intros (p & b' & m' & P & _); inversion P]).
    - cbn [SpecResolve.ids_of]. rewrite in_flat_map. apply doc_ok_arr in Hd. rewrite Forall_forall in Hd. split.
      + intros (y & Hy & Hin). apply IH in Hin; [|apply vsize_item in Hy; lia|auto]. destruct Hin as (p & b & m & P & R). apply In_nth_error in Hy. destruct Hy as [i Hi].
        exists (Index i :: p), b, m. split; auto. eapply pos_element; eauto.
      + intros (p & b & m & P & R). inversion P as [|? i y ? ? ? Ei P'| |]; subst. exists y. assert (Hy : In y l) by (eapply nth_error_In; eauto). split; auto.
        apply IH; [apply vsize_item in Hy; lia|auto|]. eauto 6.
    - pose proof (doc_ok_map m Hd) as [N HD]. rewrite Forall_forall in HD.
      assert (EQ : ids_of base (VMap m) = match new_scope base m with Some r => [(r, resolve base (VMap m))] | None => [] end ++
        flat_map (fun e => if is_literal (fst e) then [] else if is_schema_map (fst e) then
             match snd e with VMap c => flat_map (fun e' => ids_of (scope base m) (snd e')) c | _ => [] end else ids_of (scope base m) (snd e)) m) by reflexivity.
      rewrite EQ, in_app_iff, in_flat_map. split.
      + intros [H|([k y] & Hy & Hin)].
        * destruct (new_scope base m) as [r'|] eqn:Er; [|destruct H]. destruct H as [H|[]]. injection H as <- <-. exists [], base, m. split; [constructor|auto].
        * cbn [fst snd] in Hin. assert (Ea : assoc k m = Some y) by (apply assoc_NoDup; auto). pose proof (HD _ Hy) as Hdy. cbn [snd] in Hdy. apply vsize_member in Hy.
          destruct (is_literal k) eqn:L; [destruct Hin|]. destruct (is_schema_map k) eqn:S.
          -- destruct y as [|b|t|f|t|l|c|o]; try destruct Hin. apply in_flat_map in Hin. destruct Hin as ([nm z] & Hz & Hin). cbn [snd] in Hin.
             pose proof (doc_ok_map c Hdy) as [Nc HDc]. rewrite Forall_forall in HDc. pose proof (HDc _ Hz) as Hdz. cbn [snd] in Hdz.
             assert (Ec : assoc nm c = Some z) by (apply assoc_NoDup; auto). apply vsize_member in Hz.
             apply IH in Hin; [|lia|auto]. destruct Hin as (p & b & m0 & P & R). exists (Key k :: Key nm :: p), b, m0. split; auto. eapply pos_named; eauto.
          -- apply IH in Hin; [|lia|auto]. destruct Hin as (p & b & m0 & P & R). exists (Key k :: p), b, m0. split; auto. eapply pos_member; eauto.
      + intros (p & b & m0 & P & Er & Ex). inversion P as [|? ? ? ? ? ? ? ?|? k y ? ? ? Ek Lk Sk P'|? k c nm y ? ? ? Ek Sk En P']; subst.
        * left. rewrite Er. left. reflexivity.
        * right. pose proof (assoc_In _ _ _ Ek) as Hy. exists (k, y). split; auto. cbn [fst snd]. rewrite Lk, Sk. pose proof (HD _ Hy) as Hdy. apply vsize_member in Hy. apply IH; [lia|auto|]. eauto 6.
        * right. pose proof (assoc_In _ _ _ Ek) as Hy. exists (k, VMap c). split; auto. cbn [fst snd]. rewrite (schema_map_not_literal _ Sk), Sk. apply in_flat_map.
          pose proof (HD _ Hy) as Hdy. cbn [snd] in Hdy. apply vsize_member in Hy. pose proof (doc_ok_map c Hdy) as [Nc HDc]. rewrite Forall_forall in HDc.
          pose proof (assoc_In _ _ _ En) as Hz. exists (nm, y). split; auto. cbn [snd]. pose proof (HDc _ Hz) as Hdz. apply vsize_member in Hz. apply IH; [lia|auto|]. eauto 6.
  Qed.
  Lemma ids_positions v base r x : doc_ok v -> (In (r, x) (ids_of base v) <->
    exists p b m, position base v p b (VMap m) /\ new_scope b m = Some r /\ x = resolve b (VMap m)).
  Proof. apply (ids_positions_size (S (vsize v))). lia. Qed.
End Paths.
