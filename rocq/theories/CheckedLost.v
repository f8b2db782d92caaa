(** Checking by computation that every reference of a document leads somewhere
    or nowhere. *)
From Verif Require Export CheckedExact LostFetch.
Open Scope string_scope.
Open Scope list_scope.
Open Scope nat_scope.

Section Lose.
  Variable ce : cenv.
  Variable p : pool.
  Definition nowhere_b (r : string) (x : value) : bool := match pointer_get (pointer_tokens (u_fragment ce r)) x with None => true | Some _ => false end.
  Definition loser (r : string) : option cerr :=
    match assoc r p, assoc (u_strip ce r) p with
    | Some _, _ => None
    | None, Some b => if nowhere_b r (sp_doc b) then Some EPointer else None
    | None, None =>
        if u_canonical ce r then
          match c_fetch ce (u_strip ce r) with
          | None => Some EFetch
          | Some _ => match page_of ce (u_strip ce r) with
                      | Some (x, _) => if nowhere_b r x then Some EPointer else None
                      | None => None
                      end
          end
        else Some (EMsg "Reference {{.reference}} must be canonical" [("reference", r)])
    end.
  Lemma nowhere_checked r x : nowhere_b r x = true -> nowhere ce r x.
  Proof. unfold nowhere_b. intros H. apply nowhere_get. destruct (pointer_get _ x); [discriminate|auto]. Qed.
  Lemma loser_lost r e : loser r = Some e -> lost ce p r e.
  Proof.
    unfold loser. destruct (assoc r p) eqn:E1; [discriminate|]. destruct (assoc (u_strip ce r) p) as [b|] eqn:E2.
    - destruct (nowhere_b r (sp_doc b)) eqn:N; [|discriminate]. intros [= <-]. eapply lost_part; eauto. apply nowhere_checked. auto.
    - destruct (u_canonical ce r) eqn:C.
      + destruct (c_fetch ce (u_strip ce r)) eqn:F; [|intros [= <-]; apply lost_page; auto].
        destruct (page_of ce (u_strip ce r)) as [[x dr]|] eqn:P; [|discriminate]. destruct (nowhere_b r x) eqn:N; [|discriminate]. intros [= <-].
        eapply lost_served; eauto; [apply page_checked; eauto|apply nowhere_checked; auto].
      + intros [= <-]. eapply lost_relative; eauto.
  Qed.

  Definition charts_b (lib : pool) (v : value) : bool :=
    forallb (fun k => match u_parse ce k with
                      | None => true
                      | Some r => existsb (fun q => (String.eqb (fst q) r && match finder ce p r with Some e => spd_eqb (snd q) e | None => match loser r with Some _ => true | None => false end end)%bool) lib
                      end) (mentioned v).
  Definition charted_b (lib : pool) (doc : value) : bool := forallb (charts_b lib) (doc :: map (fun q => sp_doc (snd q)) lib).
  Lemma charted_checked lib doc : charted_b lib doc = true -> charted ce p lib doc.
  Proof.
    intros B. unfold charted_b in B. rewrite forallb_forall in B.
    assert (K : forall v k r, charts_b lib v = true -> mentions v k -> u_parse ce k = Some r -> exists e, In (r, e) lib /\ (finds ce p r e \/ exists x, lost ce p r x)).
    { intros v k r R M E. unfold charts_b in R. rewrite forallb_forall in R. specialize (R k (mentions_mentioned _ _ M)). rewrite E in R. apply existsb_exists in R.
      destruct R as ([r' e'] & Hin & R). apply andb_prop in R. destruct R as [R1 R2]. apply String.eqb_eq in R1. cbn [fst snd] in *. subst r'.
      destruct (finder ce p r) as [e|] eqn:Ef; [apply spd_eqb_eq in R2; subst e'; exists e; split; auto; left; apply finder_finds; auto|].
      destruct (loser r) as [x|] eqn:El; [|discriminate R2]. exists e'. split; auto. right. exists x. apply loser_lost. auto. }
    intros r R. induction R as [k r M E|r e k r' R (e0 & Hin & [HF0|[z HX]]) HF M E].
    - eapply K; eauto. apply B. left. auto.
    - rewrite (finds_fun ce p r e e0 HF HF0) in M. eapply K; eauto. apply B. right. apply (in_map (fun q => sp_doc (snd q)) _ _ Hin).
    - destruct (finds_lost ce p r e z HF HX).
  Qed.
  Lemma settled_charted lib doc d : charted ce p lib doc -> (one_draft_b lib d || all_drafts_b lib)%bool = true -> settled_in (found ce p doc) d.
  Proof.
    intros C B. assert (K : forall r e, found ce p doc r e -> In (r, e) lib).
    { intros r e [R HF]. destruct (C r R) as (e' & Hin & [HF'|[z HX]]); [|destruct (finds_lost ce p r e z HF HX)]. rewrite (finds_fun ce p r e e' HF HF'). auto. }
    apply orb_prop in B. destruct B as [B|B]; unfold one_draft_b, all_drafts_b in B; rewrite forallb_forall in B.
    - right. intros r e x H E. specialize (B _ (K _ _ H)). cbn [snd] in B. rewrite E in B. apply draft_eqb_eq. auto.
    - left. intros r e H E. specialize (B _ (K _ _ H)). cbn [snd] in B. rewrite E in B. discriminate B.
  Qed.
  (** Where a reference leads; one that leads nowhere is given the root. *)
  Definition glead (doc : value) (dflt : draft) (k : string) : option (draft * value) :=
    match flead ce p dflt k with
    | Some q => Some q
    | None => match u_parse ce k with
              | None => Some (dflt, doc)
              | Some r => match loser r with Some _ => Some (dflt, doc) | None => None end
              end
    end.
  Lemma glead_only doc dflt k q : glead doc dflt k = Some q -> forall d x, heads_to ce p doc dflt k d x -> (d, x) = q.
  Proof.
    unfold glead. destruct (flead ce p dflt k) as [q'|] eqn:E; [intros [= <-]; apply flead_only; auto|].
    intros H d x (r & e & Er & [_ HF] & _). rewrite Er in H. destruct (loser r) as [z|] eqn:El; [|discriminate]. destruct (finds_lost ce p r e z HF (loser_lost _ _ El)).
  Qed.
  (** The references and the documents they lead to, up to n of them. *)
  Fixpoint chart (n : nat) (todo : list string) (L : pool) : pool :=
    match n, todo with
    | O, _ => L
    | _, [] => L
    | S n', k :: todo' =>
        match u_parse ce k with
        | None => chart n' todo' L
        | Some r => match assoc r L, finder ce p r with
                    | None, Some e => chart n' (mentioned (sp_doc e) ++ todo') ((r, e) :: L)
                    | None, None => chart n' todo' ((r, Spd (VBool true) None) :: L)
                    | _, _ => chart n' todo' L
                    end
        end
    end.
End Lose.
