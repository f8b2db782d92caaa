(** Computable conditions: documents that are served, references that lead to
    known or served documents, and the source a loader starts from. *)
From Verif Require Export World2.
Open Scope string_scope.
Open Scope list_scope.

Section Find.
  Variable ce : cenv.
  Variable p : pool.
  Notation resolve := (resolve (u_parse ce) (u_inherits ce)).
  Notation ids_of := (ids_of (u_parse ce) (u_inherits ce)).

  Definition page_of (b : string) : option (value * option draft) :=
    match c_fetch ce b with
    | None => None
    | Some raw =>
        if (numbers_b (moderate_b (e_ratlim (c_go ce))) raw && declared_b (u_parse ce) raw &&
            (c_autodetect ce || match named_draft (u_parse ce) raw with None => true | Some _ => false end) &&
            nodup_b (map fst (ids_of b raw)) && forallb (fun e => String.eqb (fst e) b) (ids_of b raw))%bool
        then Some (resolve b raw, named_draft (u_parse ce) raw) else None
    end.
  Lemma page_checked b x dr : page_of b = Some (x, dr) -> page ce b x dr.
  Proof.
    unfold page_of. destruct (c_fetch ce b) as [raw|] eqn:E; [|discriminate]. destruct (_ && _)%bool eqn:B; [|discriminate]. intros [= <- <-].
    rewrite !andb_true_iff in B. destruct B as ((((B1 & B2) & B3) & B4) & B5). exists raw. split; auto. split; [apply moderate_checked; auto|].
    split; [apply declared_checked; auto|]. split.
    { apply orb_prop in B3. destruct B3 as [B3|B3]; [auto|right]. destruct (named_draft (u_parse ce) raw); [discriminate B3|auto]. }
    split; [apply nodup_b_ok; auto|]. split; [|auto]. intros r y H. rewrite forallb_forall in B5. apply String.eqb_eq. apply (B5 _ H).
  Qed.
  Definition finder (r : string) : option spd :=
    match assoc r p, assoc (u_strip ce r) p with
    | None, None =>
        if (u_canonical ce r && match u_parse ce r with Some r' => String.eqb r' r | None => false end)%bool
        then match page_of (u_strip ce r) with
             | Some (x, dr) =>
                 let ts := map unescape_token (pointer_tokens (u_fragment ce r)) in
                 if String.eqb (pointer_text ts) (u_fragment ce r)
                 then match follow ts x with Some y => Some (Spd y dr) | None => None end else None
             | None => None
             end
        else None
    | _, _ => Checked.find ce p r
    end.
  Lemma finder_finds r e : finder r = Some e -> finds ce p r e.
  Proof.
    unfold finder. destruct (assoc r p) eqn:E1; [intros H; left; apply find_locates; auto|]. destruct (assoc (u_strip ce r) p) eqn:E2; [intros H; left; apply find_locates; auto|].
    destruct (_ && _)%bool eqn:B; [|discriminate]. apply andb_prop in B. destruct B as [B1 B2]. destruct (u_parse ce r) as [r'|] eqn:Ep; [|discriminate B2]. apply String.eqb_eq in B2. subst r'.
    destruct (page_of (u_strip ce r)) as [[x dr]|] eqn:Eg; [|discriminate]. apply page_checked in Eg.
    set (ts := map unescape_token (pointer_tokens (u_fragment ce r))). destruct (String.eqb_spec (pointer_text ts) (u_fragment ce r)) as [Et|]; [|discriminate].
    destruct (follow ts x) as [y|] eqn:Ey; [|discriminate]. intros [= <-]. right. repeat (split; [auto; fail|]). exists ts, x, dr, y. split; auto. split; auto. split; auto. apply follow_points. auto.
  Qed.

  Definition spd_eqb (a b : spd) : bool :=
    (doc_eqb (sp_doc a) (sp_doc b) && match sp_draft a, sp_draft b with Some x, Some y => draft_eqb x y | None, None => true | _, _ => false end)%bool.
  Lemma spd_eqb_eq a b : spd_eqb a b = true -> a = b.
  Proof.
    unfold spd_eqb. destruct a as [x dx], b as [y dy]. cbn [sp_doc sp_draft]. intros H. apply andb_prop in H. destruct H as [H1 H2]. apply doc_eqb_eq in H1. subst y. f_equal.
    destruct dx, dy; try discriminate H2; auto. apply draft_eqb_eq in H2. congruence.
  Qed.
  (** The documents referred to, up to n of them. *)
  Fixpoint gather (n : nat) (todo : list string) (L : pool) : pool :=
    match n, todo with
    | O, _ => L
    | _, [] => L
    | S n', k :: todo' =>
        match u_parse ce k with
        | None => gather n' todo' L
        | Some r => match assoc r L, finder r with
                    | None, Some e => gather n' (mentioned (sp_doc e) ++ todo') ((r, e) :: L)
                    | _, _ => gather n' todo' L
                    end
        end
    end.
  Definition refers_b (lib : pool) (v : value) : bool :=
    forallb (fun k => match u_parse ce k with
                      | None => true
                      | Some r => existsb (fun q => (String.eqb (fst q) r && match finder r with Some e => spd_eqb (snd q) e | None => false end)%bool) lib
                      end) (mentioned v).
  Definition covered_b (lib : pool) (doc : value) : bool := forallb (refers_b lib) (doc :: map (fun q => sp_doc (snd q)) lib).
  Lemma covered_checked lib doc : covered_b lib doc = true -> covered ce p lib doc.
  Proof.
    intros B. unfold covered_b in B. rewrite forallb_forall in B.
    assert (K : forall v k r, refers_b lib v = true -> mentions v k -> u_parse ce k = Some r -> exists e, In (r, e) lib /\ finds ce p r e).
    { intros v k r R M E. unfold refers_b in R. rewrite forallb_forall in R. specialize (R k (mentions_mentioned _ _ M)). rewrite E in R. apply existsb_exists in R.
      destruct R as ([r' e'] & Hin & R). apply andb_prop in R. destruct R as [R1 R2]. apply String.eqb_eq in R1. cbn [fst snd] in *. subst r'.
      destruct (finder r) as [e|] eqn:Ef; [|discriminate R2]. apply spd_eqb_eq in R2. subst e'. exists e. split; auto. apply finder_finds. auto. }
    intros r R. induction R as [k r M E|r e k r' R (e0 & Hin & HF0) HF M E].
    - eapply K; eauto. apply B. left. auto.
    - rewrite (finds_fun ce p r e e0 HF HF0) in M. eapply K; eauto. apply B. right. apply (in_map (fun q => sp_doc (snd q)) _ _ Hin).
  Qed.
  Lemma covered_all lib doc : covered ce p lib doc -> all_found ce p doc.
  Proof. intros C r R. destruct (C r R) as (e & _ & H). eauto. Qed.
  Definition one_draft_b (lib : pool) (d : draft) : bool := forallb (fun q => match sp_draft (snd q) with Some x => draft_eqb x d | None => true end) lib.
  Definition all_drafts_b (lib : pool) : bool := forallb (fun q => match sp_draft (snd q) with Some _ => true | None => false end) lib.
  Lemma settled_checked lib doc d : covered ce p lib doc -> (one_draft_b lib d || all_drafts_b lib)%bool = true -> settled_in (found ce p doc) d.
  Proof.
    intros C B. assert (K : forall r e, found ce p doc r e -> In (r, e) lib).
    { intros r e [R HF]. destruct (C r R) as (e' & Hin & HF'). rewrite (finds_fun ce p r e e' HF HF'). auto. }
    apply orb_prop in B. destruct B as [B|B]; unfold one_draft_b, all_drafts_b in B; rewrite forallb_forall in B.
    - right. intros r e x H E. specialize (B _ (K _ _ H)). cbn [snd] in B. rewrite E in B. apply draft_eqb_eq. auto.
    - left. intros r e H E. specialize (B _ (K _ _ H)). cbn [snd] in B. rewrite E in B. discriminate B.
  Qed.
  Definition flead (dflt : draft) (k : string) : option (draft * value) :=
    match u_parse ce k with
    | Some r => match finder r with Some e => Some (match sp_draft e with Some d => d | None => dflt end, sp_doc e) | None => None end
    | None => None
    end.
  Lemma flead_only doc dflt k q : flead dflt k = Some q -> forall d x, heads_to ce p doc dflt k d x -> (d, x) = q.
  Proof.
    unfold flead, heads_to, leads_in. intros E d x (r & e & Er & [_ HF] & -> & ->). rewrite Er in E. destruct (finder r) as [e'|] eqn:Ef; [|discriminate]. injection E as <-.
    apply finder_finds in Ef. rewrite (finds_fun ce p r e e' HF Ef). reflexivity.
  Qed.
End Find.

(** Compiling by reference something that is not known yet. *)
Section Source.
  Variable w : world.
  Definition fetched_b (sl : sloader) (r : string) : bool :=
    (match assoc r (sl_pool sl), assoc (w_strip w r) (sl_pool sl) with None, None => true | _, _ => false end &&
     negb (String.eqb r "") && w_canonical w r && String.eqb (w_fragment w r) "")%bool.
  Definition fetched_doc (sl : sloader) (l : loader) (r : string) : option (value * option draft) :=
    match loadReference w (LoaderFactory l) (w_strip w r) with
    | None => None
    | Some raw =>
        let b := w_strip w r in
        let ids := ids_of (w_parse w) (w_inherits w) b raw in
        if (numbers_b (moderate_b (e_ratlim (w_go w))) raw && declared_b (w_parse w) raw &&
            nodup_b (map fst ids) && forallb (fun e => String.eqb (fst e) b) ids)%bool
        then Some (resolve (w_parse w) (w_inherits w) b raw, doc_draft (cenv_of w sl) raw) else None
    end.
  Lemma fetched_checked sl l r x dr : JsonReference w l = Some r -> fetched_b sl r = true -> fetched_doc sl l r = Some (x, dr) ->
    source w sl l (aset (w_strip w r) (Spd x dr) (sl_pool sl)) x.
  Proof.
    unfold fetched_b, fetched_doc. intros EJ B. rewrite !andb_true_iff in B. destruct B as (((B1 & B2) & B3) & B4).
    destruct (assoc r (sl_pool sl)) eqn:E1; [discriminate B1|]. destruct (assoc (w_strip w r) (sl_pool sl)) eqn:E2; [discriminate B1|].
    apply String.eqb_eq in B4. destruct (loadReference w (LoaderFactory l) (w_strip w r)) as [raw|] eqn:EL; [|discriminate].
    destruct (_ && _)%bool eqn:B; [|discriminate]. intros [= <- <-]. rewrite !andb_true_iff in B. destruct B as (((C1 & C2) & C3) & C4).
    apply source_fetched with (r := r) (raw := raw); auto.
    - intros ->. discriminate B2.
    - apply moderate_checked. auto.
    - apply declared_checked. auto.
    - apply nodup_b_ok. auto.
    - intros u y H. rewrite forallb_forall in C4. apply String.eqb_eq. apply (C4 _ H).
  Qed.
  Definition text_ready (sl : sloader) (l : loader) (raw : value) : bool :=
    (numbers_b (moderate_b (e_ratlim (w_go w))) raw && declared_b (w_parse w) raw &&
     match assoc "" (sl_pool sl) with None => true | Some _ => false end &&
     nodup_b (map fst (ids_of (w_parse w) (w_inherits w) "" raw)) &&
     forallb (fun e => match assoc (fst e) (sl_pool sl) with None => true | Some _ => false end) (ids_of (w_parse w) (w_inherits w) "" raw))%bool.
  Lemma text_source sl l raw : JsonReference w l = Some "" -> fst (LoadJSON w l) = Some raw -> text_ready sl l raw = true ->
    source w sl l (known_documents w sl raw) (resolve (w_parse w) (w_inherits w) "" raw).
  Proof.
    unfold text_ready. intros EJ EL B. rewrite !andb_true_iff in B. destruct B as ((((C1 & C2) & C3) & C4) & C5). apply source_text; auto.
    - apply moderate_checked. auto.
    - intros _. apply declared_checked. auto.
    - destruct (assoc "" (sl_pool sl)); [discriminate C3|auto].
    - split; [apply nodup_b_ok; auto|]. intros r Hr. apply in_map_iff in Hr. destruct Hr as (e & <- & He). rewrite forallb_forall in C5. specialize (C5 _ He). destruct (assoc (fst e) (sl_pool sl)); [discriminate C5|auto].
  Qed.
End Source.

(** Loaders that validate schemas. *)
Definition meta_free_b (p : pool) : bool :=
  forallb (fun q => forallb (fun d => match assoc (fst q) (meta_lib d) with None => true | Some _ => false end) [Draft4; Draft6; Draft7]) p.
Lemma meta_free_intact p : meta_free_b p = true -> meta_intact p.
Proof.
  intros B d k e x Hd E L. exfalso. apply assoc_In in E. unfold meta_free_b in B. rewrite forallb_forall in B. specialize (B _ E). rewrite forallb_forall in B.
  assert (Hin : In d [Draft4; Draft6; Draft7]) by (destruct d; cbn; auto; destruct (Hd eq_refl)). specialize (B d Hin). cbn [fst] in B.
  apply meta_leads_lib in L; auto. destruct L as [_ L]. pose proof (mf_nodup d (meta_facts_all d Hd)) as ND. apply (proj2 (assoc_In_iff _ _ _ ND)) in L. rewrite L in B. discriminate B.
Qed.
Definition strict : sloader := with_validate true NewSchemaLoader.
Definition checking_b (w : world) (d : draft) (fuel : nat) (t : string) : bool :=
  let raw := the_doc t in let doc := resolve (w_parse w) (w_inherits w) "" raw in
  (text_ready w strict (LString t) raw && ordinary_b (e_ratlim (w_go w)) doc && String.eqb (meta_url w strict doc) (meta_at d) &&
   Nat.ltb (meta_fuel d) fuel && Nat.leb (vsize doc * S META_DEPTH + META_DEPTH) fuel && meta_free_b (known_documents w strict raw))%bool.
Lemma checking_checked w d fuel t : url_laws w -> web_laws w -> decode_use_number t = Some (the_doc t) -> checking_b w d fuel t = true ->
  checking w fuel in_order strict (LString t) (known_documents w strict (the_doc t)) (resolve (w_parse w) (w_inherits w) "" (the_doc t)) d.
Proof.
  intros HU HW ED B. unfold checking_b in B. rewrite !andb_true_iff in B. destruct B as (((((B1 & B2) & B3) & B4) & B5) & B6).
  assert (S : source w strict (LString t) (known_documents w strict (the_doc t)) (resolve (w_parse w) (w_inherits w) "" (the_doc t))).
  { apply text_source; auto. cbn [JsonReference]. apply HU. }
  split; [apply in_order_fair|]. split; [exact I|]. split; [apply sl_ok_new|]. split; auto. split; auto. split; auto. split; auto.
  split; [apply meta_free_intact; auto|]. split; [|split; [apply String.eqb_eq; auto|split; [apply Nat.ltb_lt; auto|apply Nat.leb_le; auto]]].
  apply ordinary_checked; auto. apply (source_doc w HU HW in_order strict (LString t) _ _ in_order_fair I sl_ok_new S).
Qed.

Lemma rejected_not w fuel o sl l p doc d lib n dd e sl' (url_b : string -> bool) L L' :
  url_laws w -> web_laws w -> meta_urls w -> (0 <= e_ratlim (w_go w))%Z -> (forall s, url_b s = true -> w_parse w s <> None) ->
  checking w fuel o sl l p doc d -> root_draft w sl doc = dd -> let ce := view w sl l in
  covered_b ce p lib doc = true -> Nat.ltb (lib_fuel doc lib) fuel = true -> (one_draft_b lib dd || all_drafts_b lib)%bool = true ->
  met_b (flead ce p dd) url_b L (dd, doc) = true -> guarded_b (flead ce p dd) n L' (dd, doc) = true ->
  Compile w fuel o sl l = LErr e sl' -> ~ conforms (w_go w) d doc.
Proof.
  intros HU HW HM H0 Hb C <- ce B1 B2 B3 B4 B5 R H. apply covered_checked in B1. apply Nat.ltb_lt in B2.
  destruct (checked_accepts w HU HW HM H0 fuel o sl l p doc d lib n C (or_intror H) B1 B2) as (sch & p' & E & _).
  - apply (settled_checked _ _ _ _ _ B1 B3).
  - apply (meets_right (flead ce p (root_draft w sl doc)) url_b _ (root_draft w sl doc) (flead_only _ _ _ _)) with (L := L); auto.
  - apply (shallow_checked (flead ce p (root_draft w sl doc)) _ (flead_only _ _ _ _) n L'); auto.
  - rewrite R in E. discriminate E.
Qed.
