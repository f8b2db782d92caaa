(** Validation of schema documents against the embedded meta-schemas. *)
From Verif Require Export CheckedMeta CheckedPool.
From Coq Require Import Lia.
Open Scope string_scope.
Open Scope list_scope.
Open Scope nat_scope.

(** ** Facts computed from the texts *)
Definition raw4 : value := Eval vm_compute in the_doc (meta_source Draft4).
Definition raw6 : value := Eval vm_compute in the_doc (meta_source Draft6).
Definition raw7 : value := Eval vm_compute in the_doc (meta_source Draft7).
Definition meta_raw (d : draft) : value := match d with Draft4 => raw4 | Draft6 => raw6 | Draft7 => raw7 | Hybrid => VNil end.
Lemma meta_raw_eq d : d <> Hybrid -> decode_use_number (meta_source d) = Some (meta_raw d).
Proof. intros H. destruct d; try congruence; vm_compute; reflexivity. Qed.
Definition schema4 : value := Eval vm_compute in meta_schema Draft4.
Definition schema6 : value := Eval vm_compute in meta_schema Draft6.
Definition schema7 : value := Eval vm_compute in meta_schema Draft7.
Definition meta_doc (d : draft) : value := match d with Draft4 => schema4 | Draft6 => schema6 | Draft7 => schema7 | Hybrid => VNil end.
Lemma meta_doc_eq d : meta_schema d = meta_doc d.
Proof. destruct d; vm_compute; reflexivity. Qed.
Definition meta_part (d : draft) (n : string) : value := match follow ["definitions"; n] (meta_doc d) with Some x => x | None => VNil end.
Definition meta_key (d : draft) (n : string) : string := append (meta_at d) (append "#" (meta_fragment n)).
Definition meta_lib (d : draft) : list (string * value) := (meta_at d, meta_doc d) :: map (fun n => (meta_key d n, meta_part d n)) (meta_names d).
Definition meta_lead (d : draft) (k : string) : option (draft * value) := match assoc k (meta_lib d) with Some x => Some (d, x) | None => None end.
Definition meta_refs (d : draft) : list string := "#" :: map (fun n => append "#" (meta_fragment n)) (meta_names d).
Definition META_DEPTH := 8.
Definition meta_within (d : draft) : list (draft * value) := collect (meta_lead d) 400 [(d, meta_doc d)] [].
Definition meta_met (d : draft) : list (draft * value) := collect_met (meta_lead d) 400 [(d, meta_doc d)] [].
Definition meta_url_b (d : draft) (s : string) : bool := (String.eqb s (append (meta_at d) "#") || existsb (String.eqb s) (map fst (meta_lib d)))%bool.

Definition text_known (d : draft) (m : list (string * value)) : bool :=
  (match id_text m with Some s => String.eqb s (append (meta_at d) "#") | None => true end &&
   forallb (fun e => match snd e with VStr s => if String.eqb (fst e) "$ref" then existsb (String.eqb s) (meta_refs d) else true | _ => true end) m)%bool.
Definition meta_checks (d : draft) : bool :=
  (negb (String.eqb (meta_source d) "") && String.eqb (GetMetaSchema (meta_at d)) (meta_source d) &&
   doc_eqb (resolve parse0 inherits0 (meta_at d) (meta_raw d)) (meta_doc d) &&
   match ids_of parse0 inherits0 (meta_at d) (meta_raw d) with [(u, x)] => String.eqb u (meta_at d) && doc_eqb x (meta_doc d) | _ => false end &&
   forallb (text_known d) (objects (meta_raw d)) &&
   numbers_b (moderate_b 0) (meta_raw d) && numbers_b (moderate_b 0) (meta_doc d) &&
   match meta_raw d with VMap m => match assoc "$schema" m with Some (VStr s) => String.eqb s (append (meta_at d) "#") | _ => false end | _ => false end &&
   forallb (fun n => match follow ["definitions"; n] (meta_doc d) with Some _ => true | None => false end) (meta_names d) &&
   forallb (fun x => forallb (fun k => existsb (String.eqb k) (map fst (meta_lib d))) (mentioned x)) (map snd (meta_lib d)) &&
   guarded_b (meta_lead d) META_DEPTH (meta_within d) (d, meta_doc d) && regulars_b 0 (meta_within d) &&
   met_b (meta_lead d) (meta_url_b d) (meta_met d) (d, meta_doc d) && nodup_b (map fst (meta_lib d)) &&
   forallb (fun k => existsb (String.eqb k) (mentioned (meta_doc d))) (map fst (meta_lib d)))%bool.
Lemma meta_checked d : d <> Hybrid -> meta_checks d = true.
Proof. intros H. destruct d; try congruence; vm_compute; reflexivity. Qed.

Lemma follow_unique ts : forall v x y, follow ts v = Some x -> points ts v y -> y = x.
Proof.
  induction ts as [|t ts IH]; intros v x y E P; cbn [follow] in E; [injection E as <-; inversion P; auto|].
  destruct v; try discriminate E. inversion P as [|t' ts' m' z y' Ea Pz|]; subst. rewrite Ea in E. eauto.
Qed.
Lemma existsb_eqb s l : existsb (String.eqb s) l = true <-> In s l.
Proof.
  rewrite existsb_exists. split; [intros (x & Hx & E); apply String.eqb_eq in E; subst; auto|]. intros H. exists s. split; auto. apply String.eqb_refl.
Qed.

Lemma mentioned_mentions v k : In k (mentioned v) -> mentions v k.
Proof.
  induction v using value_ind'; cbn [mentioned]; try (intros []; fail).
  - intros Hk. assert (G : exists x, In x l /\ In k (mentioned x)).
    { clear H. induction l as [|x l IH]; [destruct Hk|]. rewrite in_app_iff in Hk. destruct Hk as [Hk|Hk]; [exists x; split; [left|]; auto|].
      destruct (IH Hk) as (y & Hy & E). exists y. split; [right|]; auto. }
    destruct G as (x & Hx & E). rewrite Forall_forall in H. eapply mentions_arr; eauto.
  - intros Hk. assert (G : exists n x, In (n, x) m /\ (n = "$ref" /\ x = VStr k \/ In k (mentioned x))).
    { clear H. induction m as [|[n x] l IH]; [destruct Hk|]. rewrite !in_app_iff in Hk. destruct Hk as [Hk|[Hk|Hk]].
      - exists n, x. split; [left; auto|]. left. destruct (String.eqb_spec n "$ref"); [|destruct Hk]. split; auto. destruct x; try (destruct Hk; fail). destruct Hk as [<-|[]]. reflexivity.
      - exists n, x. split; [left|]; auto.
      - destruct (IH Hk) as (n' & y & Hy & E). exists n', y. split; [right|]; auto. }
    destruct G as (n & x & Hx & [[-> ->]|E]); [apply mentions_here; auto|]. rewrite Forall_forall in H. eapply mentions_map; [exact Hx|]. apply (H _ Hx). auto.
Qed.

(** The checks, one by one. *)
Record meta_facts (d : draft) : Prop := {
  mf_text : meta_source d <> "";
  mf_get : GetMetaSchema (meta_at d) = meta_source d;
  mf_resolve : resolve parse0 inherits0 (meta_at d) (meta_raw d) = meta_doc d;
  mf_ids : ids_of parse0 inherits0 (meta_at d) (meta_raw d) = [(meta_at d, meta_doc d)];
  mf_known : forall m, In m (objects (meta_raw d)) -> text_known d m = true;
  mf_raw : all_numbers (moderate 0) (meta_raw d);
  mf_doc : all_numbers (moderate 0) (meta_doc d);
  mf_schema : exists m, meta_raw d = VMap m /\ assoc "$schema" m = Some (VStr (append (meta_at d) "#"));
  mf_part : forall n, In n (meta_names d) -> follow ["definitions"; n] (meta_doc d) = Some (meta_part d n);
  mf_mentioned : forall k x k', In (k, x) (meta_lib d) -> In k' (mentioned x) -> In k' (map fst (meta_lib d));
  mf_guarded : guarded_b (meta_lead d) META_DEPTH (meta_within d) (d, meta_doc d) = true;
  mf_regular : regulars_b 0 (meta_within d) = true;
  mf_met : met_b (meta_lead d) (meta_url_b d) (meta_met d) (d, meta_doc d) = true;
  mf_nodup : NoDup (map fst (meta_lib d));
  mf_all : forall k, In k (map fst (meta_lib d)) -> mentions (meta_doc d) k
}.
Lemma meta_facts_all d : d <> Hybrid -> meta_facts d.
Proof.
  intros H. pose proof (meta_checked d H) as C. unfold meta_checks in C. rewrite !andb_true_iff in C.
  destruct C as ((((((((((((((C1 & C2) & C3) & C4) & C5) & C6) & C7) & C8) & C9) & C10) & C11) & C12) & C13) & C14) & C15).
  constructor; auto.
  - intros E. rewrite E in C1. discriminate C1.
  - apply String.eqb_eq. auto.
  - apply doc_eqb_eq. auto.
  - destruct (ids_of parse0 inherits0 (meta_at d) (meta_raw d)) as [|[u x] [|]]; try discriminate C4. apply andb_prop in C4. destruct C4 as [E1 E2].
    apply String.eqb_eq in E1. apply doc_eqb_eq in E2. subst. reflexivity.
  - rewrite forallb_forall in C5. auto.
  - apply moderate_checked. auto.
  - apply moderate_checked. auto.
  - destruct (meta_raw d) as [|b|t|f|t|l|m|o]; try discriminate C8. exists m. split; auto. destruct (assoc "$schema" m) as [y|]; [|discriminate C8].
    destruct y; try discriminate C8. apply String.eqb_eq in C8. subst. reflexivity.
  - intros n Hn. rewrite forallb_forall in C9. specialize (C9 n Hn). unfold meta_part. destruct (follow _ _) as [x|]; [reflexivity|discriminate C9].
  - intros k x k' Hx Hk. rewrite forallb_forall in C10. specialize (C10 x (in_map snd _ _ Hx)). rewrite forallb_forall in C10. apply existsb_eqb. auto.
  - apply nodup_b_ok. auto.
  - intros k Hk. rewrite forallb_forall in C15. apply mentioned_mentions, existsb_eqb. auto.
Qed.

Lemma meta_leads_lib d k d' x : d <> Hybrid -> (meta_leads d k d' x <-> d' = d /\ In (k, x) (meta_lib d)).
Proof.
  intros H. unfold meta_leads, meta_lib. rewrite meta_doc_eq. cbn [In]. rewrite in_map_iff. split.
  - intros [E [[-> ->]|(n & Hn & -> & P)]]; split; auto. right. exists n. split; auto. unfold meta_key. f_equal.
    symmetry. exact (follow_unique _ _ _ _ (mf_part d (meta_facts_all d H) n Hn) P).
  - intros [E [E1|(n & E1 & Hn)]]; (split; [auto|]); injection E1 as <- <-; [left; auto|]. right. exists n. repeat split; auto.
    apply follow_points. apply (mf_part d (meta_facts_all d H) n Hn).
Qed.
Lemma meta_lead_leads d k q : d <> Hybrid -> (meta_lead d k = Some q <-> meta_leads d k (fst q) (snd q)).
Proof.
  intros H. rewrite meta_leads_lib by auto. unfold meta_lead. pose proof (mf_nodup d (meta_facts_all d H)) as ND. split.
  - destruct (assoc k (meta_lib d)) as [x|] eqn:E; intros [= <-]. cbn [fst snd]. split; auto. apply assoc_In. auto.
  - destruct q as [d' x]. cbn [fst snd]. intros [-> Hx]. rewrite (proj2 (assoc_In_iff _ k x ND)); auto.
Qed.
Lemma named_meta parse doc d : named_draft parse doc = Some d <-> d <> Hybrid /\ declared_url parse doc = meta_at d.
Proof.
  unfold named_draft, declared_url.
  destruct doc as [|b|t|f|t|l|m|o]; try (split; [discriminate|intros [N E]; destruct d; cbn in E; congruence]).
  destruct (assoc "$schema" m) as [x|]; [|split; [discriminate|intros [N E]; destruct d; cbn in E; congruence]].
  destruct x as [|b|t|f|t|l|m'|o]; try (split; [discriminate|intros [N E]; destruct d; cbn in E; congruence]).
  destruct (parse t) as [r|]; [|split; [discriminate|intros [N E]; destruct d; cbn in E; congruence]].
  destruct (String.eqb_spec r "http://json-schema.org/draft-04/schema") as [->|N4]; [split; [intros [= <-]; split; [discriminate|auto]|intros [N E]; destruct d; cbn in E; congruence]|].
  destruct (String.eqb_spec r "http://json-schema.org/draft-06/schema") as [->|N6]; [split; [intros [= <-]; split; [discriminate|auto]|intros [N E]; destruct d; cbn in E; congruence]|].
  destruct (String.eqb_spec r "http://json-schema.org/draft-07/schema") as [->|N7]; [split; [intros [= <-]; split; [discriminate|auto]|intros [N E]; destruct d; cbn in E; congruence]|].
  split; [discriminate|]. intros [N E]. destruct d; cbn in E; congruence.
Qed.

(** ** In any world *)
Section World.
  Variable w : world.
  Hypothesis HU : url_laws w.
  Hypothesis HW : web_laws w.
  Hypothesis HM : meta_urls w.
  Notation lim := (e_ratlim (w_go w)).
  Hypothesis Hlim : (0 <= lim)%Z.
  Variable d : draft.
  Hypothesis Hd : d <> Hybrid.
  Notation u := (meta_at d).
  Let MF := meta_facts_all d Hd.

  Lemma meta_agrees m : inside (meta_raw d) (VMap m) -> agrees (w_parse w) parse0 (w_inherits w) inherits0 u m.
  Proof.
    intros H. apply inside_objects in H. apply (mf_known d MF) in H. unfold text_known in H. apply andb_prop in H. destruct H as [H1 H2].
    destruct (HM d Hd) as [(U1 & U2 & U3 & U4 & _) UN]. split.
    - intros s E. rewrite E in H1. apply String.eqb_eq in H1. subst. exists u. split; auto. split; [|split; auto]; destruct d; try (destruct (Hd eq_refl)); vm_compute; reflexivity.
    - intros s Hs. rewrite forallb_forall in H2. specialize (H2 _ Hs). cbn [fst snd] in H2. rewrite String.eqb_refl in H2. apply existsb_eqb in H2. destruct H2 as [<-|H2].
      + unfold absolute. destruct HU as (P1 & _). rewrite P1. rewrite U4. destruct d; vm_compute; reflexivity.
      + apply in_map_iff in H2. destruct H2 as (n & <- & Hn). destruct (UN n Hn) as (N1 & N2 & _). unfold absolute. rewrite N1, N2. clear - Hn.
        destruct d; cbn [meta_names In] in Hn; repeat (destruct Hn as [<-|Hn]; [vm_compute; reflexivity|]); destruct Hn.
  Qed.
  Lemma meta_resolved : resolve (w_parse w) (w_inherits w) u (meta_raw d) = meta_doc d.
  Proof. rewrite <- (mf_resolve d MF). apply (resolve_agrees _ _ _ _ _ (S (vsize (meta_raw d)))); [lia|]. apply meta_agrees. Qed.
  Lemma meta_ids : ids_of (w_parse w) (w_inherits w) u (meta_raw d) = [(u, meta_doc d)].
  Proof. rewrite <- (mf_ids d MF). apply (ids_agrees _ _ _ _ _ (S (vsize (meta_raw d)))); [lia|]. apply meta_agrees. Qed.
  Lemma meta_fetched fs : loadReference w fs u = Some (meta_raw d).
  Proof.
    destruct (HM d Hd) as [(_ & U2 & _ & _ & U5 & _ & _ & U8) _]. unfold loadReference. rewrite U2, U5, U8. unfold loadFromHTTP. rewrite (mf_get d MF).
    pose proof (mf_text d MF) as N. apply String.eqb_neq in N. rewrite N. cbn [negb]. apply meta_raw_eq. auto.
  Qed.
  Lemma meta_raw_named : named_draft (w_parse w) (meta_raw d) = Some d /\ well_declared (w_parse w) (meta_raw d).
  Proof.
    destruct (mf_schema d MF) as (m & E & Es). destruct (HM d Hd) as [(U1 & _) _]. rewrite E. split.
    - apply named_meta. split; auto. unfold declared_url. rewrite Es, U1. reflexivity.
    - right. exists m. split; auto. intros x Ex. rewrite Es in Ex. injection Ex as <-. eauto.
  Qed.
  Lemma meta_doc_named (sl : sloader) : named_draft (w_parse w) (meta_doc d) = Some d /\ well_declared (w_parse w) (meta_doc d).
  Proof.
    destruct meta_raw_named as [N D]. rewrite <- meta_resolved. split; [rewrite <- N; apply (resolve_named (cenv_of w sl))|apply (resolve_declared (cenv_of w sl)); auto].
  Qed.
  Lemma moderate_lim v : all_numbers (moderate 0) v -> all_numbers (moderate lim) v.
  Proof. apply all_numbers_weak. intros s. apply moderate_weak. auto. Qed.

  (** *** Keys *)
  Lemma meta_key_cases k x : In (k, x) (meta_lib d) ->
    k = u /\ x = meta_doc d \/ exists n, In n (meta_names d) /\ k = meta_key d n /\ x = meta_part d n.
  Proof.
    unfold meta_lib. intros [E|H]; [injection E as <- <-; auto|]. apply in_map_iff in H. destruct H as (n & E & Hn). injection E as <- <-. right. eauto.
  Qed.
  Lemma meta_key_url k x : In (k, x) (meta_lib d) -> w_parse w k = Some k /\ w_strip w k = u.
  Proof.
    destruct (HM d Hd) as [(_ & U2 & _ & _ & U5 & _) UN]. intros H. apply meta_key_cases in H. destruct H as [[-> _]|(n & Hn & -> & _)]; [auto|].
    destruct (UN n Hn) as (_ & _ & N3 & N4 & _). auto.
  Qed.
  Lemma meta_pointer n : In n (meta_names d) -> meta_fragment n = pointer_text ["definitions"; n].
  Proof. clear MF. intros Hn. destruct d; cbn [meta_names In] in Hn; repeat (destruct Hn as [<-|Hn]; [vm_compute; reflexivity|]); destruct Hn. Qed.
  (** Where the keys lead. *)
  Lemma meta_points k x : In (k, x) (meta_lib d) -> exists ts, w_fragment w k = pointer_text ts /\ points ts (meta_doc d) x /\ (k <> u -> ts = [] -> False).
  Proof.
    destruct (HM d Hd) as [(_ & _ & _ & _ & _ & U6 & _) UN]. intros H. apply meta_key_cases in H. destruct H as [[-> ->]|(n & Hn & -> & ->)].
    - exists []. split; [exact U6|]. split; [constructor|]. congruence.
    - exists ["definitions"; n]. destruct (UN n Hn) as (_ & _ & _ & _ & N5). split; [exact (eq_trans N5 (meta_pointer n Hn))|]. split; [|discriminate].
      apply follow_points. apply (mf_part d MF n Hn).
  Qed.
  Lemma meta_located sl p k x b : In (k, x) (meta_lib d) -> assoc k p = None -> assoc u p = Some b -> sp_doc b = meta_doc d ->
    locates (cenv_of w sl) p k (Spd x (sp_draft b)).
  Proof.
    intros Hk E Eb Hb. destruct (meta_key_url k x Hk) as [_ Es]. destruct (meta_points k x Hk) as (ts & Ef & P & _).
    right. split; auto. exists b, ts, x. cbn [cenv_of u_strip u_fragment]. rewrite Es, Hb. auto.
  Qed.
  Lemma meta_page sl : sl_auto sl = true -> page (cenv_of w sl) u (meta_doc d) (Some d).
  Proof.
    intros Ha. destruct meta_raw_named as [N D]. exists (meta_raw d). cbn [cenv_of c_fetch c_go u_parse u_inherits c_autodetect].
    split; [apply meta_fetched|]. split; [apply moderate_lim, (mf_raw d MF)|]. split; auto. split; auto. rewrite meta_ids.
    split; [constructor; [intros []|constructor]|]. split; [intros r y [E|[]]; congruence|]. split; [symmetry; apply meta_resolved|auto].
  Qed.
  Lemma meta_finds sl p k x e : meta_intact p -> In (k, x) (meta_lib d) -> finds (cenv_of w sl) p k e -> sp_doc e = x /\ (sp_draft e = None \/ sp_draft e = Some d).
  Proof.
    intros HI Hk HF. assert (HL : forall e, assoc k p = Some e -> sp_doc e = x /\ (sp_draft e = None \/ sp_draft e = Some d)).
    { intros e' E'. apply (HI d k e' x Hd E'). apply meta_leads_lib; auto. }
    destruct (meta_key_url k x Hk) as [Ep Es]. pose proof HF as HF0. destruct HF as [[E|(E & b & ts & y & Eb & Ef & P & ->)]|(E1 & E2 & Ec & Er & ts & y & dr & z & HP & Ef & P & ->)].
    - auto.
    - cbn [cenv_of u_strip] in Eb. rewrite Es in Eb.
      destruct (HI d u b (meta_doc d) Hd Eb) as [Hb Hdr]; [apply meta_leads_lib; auto; split; [reflexivity|left; reflexivity]|].
      pose proof (meta_located sl p k x b Hk E Eb Hb) as L. rewrite (finds_fun _ _ _ _ _ HF0 (or_introl L)). auto.
    - destruct HP as (raw & Eraw & _ & _ & Ha & _ & _ & -> & ->). cbn [cenv_of u_strip c_fetch u_parse c_autodetect] in *. rewrite Es in *.
      rewrite meta_fetched in Eraw. injection Eraw as <-. destruct meta_raw_named as [N D]. rewrite N in *. destruct Ha as [Ha|Ha]; [|discriminate Ha].
      destruct (meta_points k x Hk) as (ts' & Ef' & P' & _).
      assert (L : finds (cenv_of w sl) p k (Spd x (Some d))).
      { right. cbn [cenv_of u_strip u_canonical u_parse u_fragment]. rewrite Es. split; auto. split; auto. split; auto. split; auto.
        exists ts', (meta_doc d), (Some d), x. split; [apply meta_page; auto|auto]. }
      rewrite (finds_fun _ _ _ _ _ HF0 L). auto.
  Qed.
End World.

Lemma meta_at_inj d d' : d <> Hybrid -> d' <> Hybrid -> meta_at d = meta_at d' -> d = d'.
Proof. destruct d, d'; intros H H' E; congruence || discriminate E. Qed.
Lemma meta_at_text d : utf8_text (meta_at d).
Proof. apply utf8_checked. destruct d; vm_compute; reflexivity. Qed.

(** ** One meta-schema *)
Section Meta.
  Variable w : world.
  Hypothesis HU : url_laws w.
  Hypothesis HW : web_laws w.
  Hypothesis HM : meta_urls w.
  Notation lim := (e_ratlim (w_go w)).
  Hypothesis Hlim : (0 <= lim)%Z.

  Lemma grown_intact sl p p' : meta_intact p -> grown (cenv_of w sl) p p' -> meta_intact p'.
  Proof.
    intros HI [_ G] d k e x Hd E L. apply meta_leads_lib in L; auto. apply (meta_finds w HU HM Hlim d Hd sl p k x e HI); [apply L|]. apply (G _ _ E).
  Qed.
  Lemma aset_intact p d dr : d <> Hybrid -> meta_intact p -> (dr = None \/ dr = Some d) -> meta_intact (aset (meta_at d) (Spd (meta_doc d) dr) p).
  Proof.
    intros Hd HI Hdr d' k e x Hd' E L. rewrite assoc_aset in E. destruct (String.eqb_spec k (meta_at d)) as [->|_]; [|eapply HI; eauto]. injection E as <-.
    cbn [sp_doc sp_draft]. pose proof L as L'. apply meta_leads_lib in L'; auto. destruct L' as [_ L'].
    destruct (meta_key_url w HM d' Hd' _ _ L') as [_ E]. destruct (HM d Hd) as [(_ & _ & _ & _ & U5 & _) _]. rewrite U5 in E. apply meta_at_inj in E; auto. subst d'.
    split; auto. pose proof (mf_nodup d (meta_facts_all d Hd)) as ND. apply (proj2 (assoc_In_iff _ _ _ ND)) in L'.
    unfold meta_lib in L'. cbn [assoc] in L'. rewrite String.eqb_refl in L'. congruence.
  Qed.

  Variable d : draft.
  Hypothesis Hd : d <> Hybrid.
  Notation u := (meta_at d).
  Let MF := meta_facts_all d Hd.
  Definition meta_entries : pool := flat_map (fun e => [(fst e, Spd (snd e) None); (fst e, Spd (snd e) (Some d))]) (meta_lib d).
  Definition meta_fuel : nat := lib_fuel (meta_doc d) meta_entries.

  (** *** Loading it *)
  Lemma meta_loaded sl : meta_intact (sl_pool sl) ->
    exists p dr, source w sl (LRef 0 u) p (meta_doc d) /\ assoc u p = Some (Spd (meta_doc d) dr) /\ meta_intact p /\
      (p = sl_pool sl \/ assoc u (sl_pool sl) = None /\ dr = (if sl_auto sl then Some d else None) /\ p = aset u (Spd (meta_doc d) dr) (sl_pool sl)).
  Proof.
    intros HI. destruct (HM d Hd) as [(U1 & U2 & U3 & U4 & U5 & U6 & U7 & U8) _].
    assert (Nu : u <> "") by (destruct d; try discriminate; destruct (Hd eq_refl)).
    destruct (assoc u (sl_pool sl)) as [[x dr]|] eqn:E.
    - destruct (HI d u _ (meta_doc d) Hd E) as [Ex Hdr]; [apply meta_leads_lib; auto; split; [reflexivity|left; reflexivity]|]. cbn [sp_doc sp_draft] in *. subst x.
      exists (sl_pool sl), dr. split; [|split; auto].
      apply (source_ref w sl (LRef 0 u) u (Spd (meta_doc d) dr)); auto.
      + left. left. auto.
      + apply moderate_lim; auto. apply (mf_doc d MF).
      + intros _. apply (meta_doc_named w HU HM d Hd sl).
    - destruct (meta_raw_named w HM d Hd) as [N D].
      assert (Edr : doc_draft (cenv_of w sl) (meta_raw d) = if sl_auto sl then Some d else None).
      { unfold doc_draft. cbn [cenv_of c_autodetect u_parse]. rewrite N. reflexivity. }
      exists (aset u (Spd (meta_doc d) (if sl_auto sl then Some d else None)) (sl_pool sl)), (if sl_auto sl then Some d else None).
      split; [|split; [|split]].
      + pose proof (source_fetched w sl (LRef 0 u) u (meta_raw d)) as S. rewrite U5, (meta_resolved w HU HM d Hd), (meta_ids w HU HM d Hd), Edr in S. apply S; auto.
        * apply (meta_fetched w HM d Hd).
        * apply moderate_lim; auto. apply (mf_raw d MF).
        * constructor; [intros []|constructor].
        * intros r y [Er|[]]. congruence.
      + rewrite assoc_aset, String.eqb_refl. reflexivity.
      + apply aset_intact; auto. destruct (sl_auto sl); auto.
      + right. auto.
  Qed.

  (** *** What it refers to *)
  Section Refer.
    Variable sl : sloader.
    Variable p : pool.
    Variable dr0 : option draft.
    Hypothesis HI : meta_intact p.
    Hypothesis Hp : assoc u p = Some (Spd (meta_doc d) dr0).
    Notation ce := (cenv_of w sl).

    Lemma meta_reached r : reached ce p (meta_doc d) r -> exists x, In (r, x) (meta_lib d).
    Proof.
      assert (K : forall k r, In k (map fst (meta_lib d)) -> w_parse w k = Some r -> exists x, In (r, x) (meta_lib d)).
      { intros k r' Hk E. apply in_map_iff in Hk. destruct Hk as ([k' x] & <- & Hk). destruct (meta_key_url w HM d Hd _ _ Hk) as [Ek _]. cbn [fst] in E. rewrite Ek in E. injection E as <-. eauto. }
      intros R. induction R as [k r M E|r e k r' R [x IH] HF M E].
      - eapply K; [|exact E]. apply (mf_mentioned d MF u (meta_doc d) k); [left; auto|]. apply mentions_mentioned. auto.
      - eapply K; [|exact E]. apply (mf_mentioned d MF r x k); auto. destruct (meta_finds w HU HM Hlim d Hd sl p r x e HI IH HF) as [<- _]. apply mentions_mentioned. auto.
    Qed.
    Lemma meta_found k x : In (k, x) (meta_lib d) -> exists dr, finds ce p k (Spd x dr) /\ (dr = None \/ dr = Some d) /\ reached ce p (meta_doc d) k.
    Proof.
      intros Hk. assert (R : reached ce p (meta_doc d) k).
      { apply (reached_root _ _ _ k); [apply (mf_all d MF); apply (in_map fst _ _ Hk)|apply (meta_key_url w HM d Hd _ _ Hk)]. }
      assert (G : exists e, finds ce p k e).
      { destruct (assoc k p) as [e|] eqn:E; [exists e; left; left; auto|]. eexists. left. eapply meta_located; eauto. }
      destruct G as [e G]. destruct (meta_finds w HU HM Hlim d Hd sl p k x e HI Hk G) as [<- Hdr]. exists (sp_draft e). split; auto. destruct e. auto.
    Qed.
    Lemma meta_covered : covered ce p meta_entries (meta_doc d).
    Proof.
      intros r R. apply meta_reached in R. destruct R as [x Hx]. destruct (meta_found r x Hx) as (dr & HF & Hdr & _). exists (Spd x dr). split; auto.
      unfold meta_entries. apply in_flat_map. exists (r, x). split; auto. cbn [fst snd In]. destruct Hdr as [-> | ->]; auto.
    Qed.
    Lemma meta_heads k d' x : (exists y, In (k, y) (meta_lib d)) -> (heads_to ce p (meta_doc d) d k d' x <-> meta_leads d k d' x).
    Proof.
      intros [y Hy]. destruct (meta_key_url w HM d Hd _ _ Hy) as [Ek _]. rewrite meta_leads_lib by auto. unfold heads_to, leads_in. split.
      - intros (r & e & Er & [R HF] & -> & ->). cbn [cenv_of u_parse] in Er. rewrite Ek in Er. injection Er as <-.
        destruct (meta_finds w HU HM Hlim d Hd sl p k y e HI Hy HF) as [E [-> | ->]]; rewrite E; auto.
      - intros [-> Hx]. destruct (meta_found k x Hx) as (dr & HF & Hdr & R). exists k, (Spd x dr). split; auto. split; [split; auto|]. split; auto.
        cbn [sp_draft]. destruct Hdr as [-> | ->]; auto.
    Qed.
    Lemma meta_lead_heads k q : meta_lead d k = Some q -> forall d' x, heads_to ce p (meta_doc d) d k d' x -> (d', x) = q.
    Proof.
      intros E d' x HT. assert (Hk : exists y, In (k, y) (meta_lib d)).
      { unfold meta_lead in E. destruct (assoc k (meta_lib d)) eqn:Ea; [|discriminate E]. eexists. apply assoc_In. eauto. }
      apply meta_heads in HT; auto. assert (E2 : meta_lead d k = Some (d', x)) by (apply meta_lead_leads; auto). congruence.
    Qed.
    Lemma meta_settled : settled_in (found ce p (meta_doc d)) d.
    Proof.
      right. intros r e x [R HF] E. apply meta_reached in R. destruct R as [y Hy]. destruct (meta_finds w HU HM Hlim d Hd sl p r y e HI Hy HF) as [_ [E'|E']]; congruence.
    Qed.
    Lemma meta_right d' x : meets (heads_to ce p (meta_doc d)) d (meta_doc d) d' x -> right ce d' x.
    Proof.
      apply (meets_right (meta_lead d) (meta_url_b d) (heads_to ce p (meta_doc d)) d meta_lead_heads ce Hlim) with (L := meta_met d); [|apply (mf_met d MF)].
      intros s E. unfold meta_url_b in E. apply orb_prop in E. destruct (HM d Hd) as [(U1 & _) _]. cbn [cenv_of u_parse]. destruct E as [E|E].
      - apply String.eqb_eq in E. subst. congruence.
      - apply existsb_eqb in E. apply in_map_iff in E. destruct E as ([k y] & <- & E). destruct (meta_key_url w HM d Hd _ _ E) as [Ek _]. cbn [fst]. congruence.
    Qed.
    Lemma meta_shallow : shallow (heads_to ce p (meta_doc d) d) META_DEPTH d (meta_doc d).
    Proof. apply (shallow_checked (meta_lead d) _ meta_lead_heads _ (meta_within d)). apply (mf_guarded d MF). Qed.
    Lemma meta_regular d' m : within (heads_to ce p (meta_doc d) d) d (meta_doc d) d' (VMap m) -> assoc "$ref" m = None -> regular lim m.
    Proof.
      intros W E. pose proof (regulars_checked _ _ meta_lead_heads _ _ d (meta_doc d) 0 (mf_guarded d MF) (mf_regular d MF) d' m W E) as R.
      destruct R as (R1 & R2 & R3 & R4 & R5 & R6 & R7). repeat (split; auto); eapply moderate_weak; eauto; try apply R6; try apply R7; auto.
    Qed.
    Lemma meta_within_key d' m k : within (heads_to ce p (meta_doc d) d) d (meta_doc d) d' (VMap m) -> assoc "$ref" m = Some (VStr k) -> exists y, In (k, y) (meta_lib d).
    Proof.
      intros W E. destruct (reference_known _ _ meta_lead_heads _ _ _ _ _ _ _ (mf_guarded d MF) W E) as [q Eq].
      unfold meta_lead in Eq. destruct (assoc k (meta_lib d)) eqn:Ea; [|discriminate Eq]. eexists. apply assoc_In. eauto.
    Qed.
    Lemma meta_meaning_at env doc :
      meaning_at (pat env) (fmt env) same (heads_to ce p (meta_doc d) d) d (meta_doc d) doc (meaning (pat env) (fmt env) same (meta_leads d)).
    Proof.
      set (T := heads_to ce p (meta_doc d) d).
      assert (G' : guarded (meta_leads d) d (meta_doc d)).
      { eapply (guarded_checked (meta_lead d) (meta_leads d)); [|apply (mf_guarded d MF)]. intros k q E d' x L. assert (E2 : meta_lead d k = Some (d', x)) by (apply meta_lead_leads; auto). congruence. }
      apply (meaning_at_refs _ _ _ T (meta_leads d)).
      - intros d' m v k N E d2 x. apply meta_heads. eapply meta_within_key; [eapply needed_within; exact N|exact E].
      - apply meaning_exists. eapply guarded_well_founded; [exact G'|constructor].
    Qed.
    Lemma meta_means env doc : meaning (pat env) (fmt env) same (heads_to ce p (meta_doc d) d) d (meta_doc d) doc <-> conforms env d doc.
    Proof.
      set (T := heads_to ce p (meta_doc d) d). unfold conforms. rewrite meta_doc_eq.
      assert (G : guarded T d (meta_doc d)) by (eapply shallow_guarded; apply meta_shallow).
      apply (meaning_unique (pat env) (fmt env) same T (meaning (pat env) (fmt env) same T) (meaning (pat env) (fmt env) same (meta_leads d))).
      - eapply guarded_well_founded; [exact G|constructor].
      - apply meaning_exists. eapply guarded_well_founded; [exact G|constructor].
      - apply meta_meaning_at.
    Qed.
    Lemma meta_means_tells env doc es :
      SpecReason.tells (pat env) (fmt env) same (meaning (pat env) (fmt env) same (meta_leads d)) (heads_to ce p (meta_doc d) d) d (meta_doc d) doc es -> lines es -> meta_tells env d doc es.
    Proof.
      unfold meta_tells. rewrite meta_doc_eq. intros HT HL. split; auto. revert HT. apply ReasonDue.tells_refs. intros d' m x k N E d2 y. apply meta_heads. eapply meta_within_key; [eapply needed_within; exact N|exact E].
    Qed.
  End Refer.

  (** *** Validation against it *)
  Theorem metaschema_decides fuel o sl doc : fair o -> sl_ok sl -> meta_intact (sl_pool sl) -> ordinary lim doc ->
    (sl_auto sl = true -> well_declared (w_parse w) doc) -> meta_url w sl doc = u -> (sl_auto sl = false -> sl_draft sl = d) ->
    meta_fuel < fuel -> vsize doc * S META_DEPTH + META_DEPTH <= fuel ->
    exists p', meta_intact p' /\ (exists p, grown (cenv_of w (with_factory 0 sl)) p p' /\
        (p = sl_pool sl \/ assoc u (sl_pool sl) = None /\ p = aset u (Spd (meta_doc d) (if sl_auto sl then Some d else None)) (sl_pool sl))) /\
      let sl' := with_pool p' (with_factory 0 (with_validate true sl)) in
      (conforms (w_go w) d doc /\ validateMetaschema w fuel o sl doc = LOk tt sl' \/
       ~ conforms (w_go w) d doc /\ exists es, meta_tells (w_go w) d doc es /\ validateMetaschema w fuel o sl doc = LErr (EMeta es) sl').
  Proof.
    intros F Hs HI HO Hw Eu Hauto Hf1 Hf2. set (sl0 := with_validate false sl).
    destruct (meta_loaded sl0 HI) as (p & dr & S & Hp & HIp & HP). rewrite <- Eu in S.
    assert (Ed : root_draft w sl0 (meta_doc d) = d).
    { unfold root_draft, doc_draft. cbn [cenv_of c_autodetect u_parse]. destruct (meta_doc_named w HU HM d Hd sl0) as [N _]. rewrite N.
      unfold sl0. cbn [with_validate sl_auto sl_draft]. destruct (sl_auto sl); auto. }
    assert (Nu : meta_url w sl doc <> "") by (rewrite Eu; destruct d; try discriminate; destruct (Hd eq_refl)).
    assert (Tu : utf8_text (meta_url w sl doc)) by (rewrite Eu; apply meta_at_text).
    assert (HO' : usual lim doc) by (split; apply HO).
    pose proof (meta_decides w HU HW fuel o sl doc p (meta_doc d) meta_entries META_DEPTH F Hs HO' Hw Tu Nu S) as M.
    cbv zeta in M. fold sl0 in M. rewrite Ed in M. set (sl1 := with_factory (LoaderFactory (LRef 0 (meta_url w sl doc))) sl0).
    change (view w sl0 (LRef 0 (meta_url w sl doc))) with (cenv_of w sl1) in M.
    specialize (fun H1 H2 H3 H4 H5 H6 H7 => M H1 H2 H3 H4 H5 H6 H7 _ (meta_meaning_at sl1 p dr HIp Hp (w_go w) doc)).
    destruct M as (p' & G & M).
    - eapply meta_covered; eauto.
    - exact Hf1.
    - exact Hf2.
    - eapply meta_settled; eauto.
    - eapply meta_right; eauto.
    - eapply meta_shallow; eauto.
    - apply regular_fits; auto. eapply meta_regular; eauto.
    - exists p'. split; [eapply grown_intact; eauto|]. split.
      + exists p. split; [exact G|]. destruct HP as [HP|(H1 & -> & HP)]; auto.
      + cbv zeta in M. rewrite (meta_means sl1 p dr HIp Hp (w_go w) doc) in M. destruct M as [M|(N & es & HT & HLi & M)]; [left; exact M|right].
        split; auto. exists es. split; auto. apply (meta_means_tells sl1 p dr HIp Hp); auto.
  Qed.
End Meta.
