(** Calls of AddSchema and AddSchemas that fail. *)
From Coq Require Import List.
From Verif Require Import PoolProps.
Import ListNotations.
Open Scope string_scope.
Open Scope list_scope.

Section Fail.
  Variable w : world.
  Lemma declared_new_scope sl base m r : declared_id (cenv_of w sl) base m = Ok (Some r) -> new_scope (w_parse w) (w_inherits w) base m = Some r.
  Proof.
    unfold declared_id, new_scope, id_text, existsMapKey. cbn [cenv_of u_parse u_inherits c_go].
    assert (K : forall v, (do b <- isKind (e_ratlim (w_go w)) v [KString];
        if negb b then Ok None else match v with
        | VStr s => match w_parse w s with None => Ok None | Some r => match w_inherits w base r with Some a => Ok (Some a) | None => Panic end end
        | _ => Panic end) = Ok (Some r) -> exists s x, v = VStr s /\ w_parse w s = Some x /\ w_inherits w base x = Some r).
    { intros v E. apply obind_ok in E. destruct E as (b & _ & E). destruct b; cbn [negb] in E; [|discriminate E].
      destruct v; try discriminate E. destruct (w_parse w s) as [x|] eqn:Ep; [|discriminate E]. destruct (w_inherits w base x) as [a|] eqn:Ei; [|discriminate E].
      injection E as ->. eauto. }
    destruct (assoc "id" m) as [v|] eqn:E1.
    - rewrite E1. intros E. apply K in E. destruct E as (s & x & -> & -> & ->). reflexivity.
    - destruct (assoc "$id" m) as [v|] eqn:E2; [|discriminate]. intros E. apply K in E. destruct E as (s & x & -> & -> & ->). reflexivity.
  Qed.
  (** What a failing parseReferences leaves. *)
  Lemma refs_fail o doc ref pooled sl e sl' : pool_parseReferences w o doc ref pooled sl = LErr e sl' ->
    sl' = sl \/ pooled = true /\ exists m r d, doc = VMap m /\ new_scope (w_parse w) (w_inherits w) ref m = Some r /\ e = EExists r /\
      assoc r (sl_pool sl) <> None /\ assoc ref (sl_pool sl) = None /\ sl' = with_pool (aset ref (Spd doc d) (sl_pool sl)) sl.
  Proof.
    unfold pool_parseReferences. destruct (parseReferences _ _ _ _ _ _) as [q| |] eqn:EQ; cbn [run_out lbind]; try discriminate.
    destruct (pr_err q) as [e'|] eqn:Ee; intros [= <- <-].
    assert (W : with_pool (sl_pool sl) sl = sl) by (destruct sl; reflexivity).
    unfold parseReferences in EQ. destruct (pooled && _)%bool eqn:Eb; [injection EQ as <-; left; exact W|].
    apply obind_ok in EQ. destruct EQ as ([e1|d] & _ & EQ); [injection EQ as <-; left; exact W|]. apply obind_ok in EQ. destruct EQ as (q' & EQ & E2).
    assert (E2' : pr_err q' = Some e') by (destruct pooled; injection E2 as <-; exact Ee).
    cbn [parseReferencesRecursive] in EQ. unfold parseReferencesNode in EQ. destruct doc as [| | | | |l|m|]; try (injection EQ as <-; discriminate E2').
    - apply obind_ok in EQ. destruct EQ as (x & _ & EQ). injection EQ as <-. discriminate E2'.
    - apply obind_ok in EQ. destruct EQ as ([r|] & Ed & EQ).
      + apply declared_new_scope in Ed. destruct (assoc r (sl_pool sl)) as [x|] eqn:Er.
        * injection EQ as <-. cbn [pr_err pr_doc pr_pool] in E2, E2'. injection E2' as <-. destruct pooled.
          -- right. split; [reflexivity|]. exists m, r, d. injection E2 as <-. cbn [pr_pool]. cbn [andb] in Eb. repeat split; auto; try congruence. destruct (assoc ref (sl_pool sl)); [discriminate Eb|reflexivity].
          -- left. injection E2 as <-. exact W.
        * apply obind_ok in EQ. destruct EQ as (m1 & _ & EQ). apply obind_ok in EQ. destruct EQ as (x & _ & EQ). injection EQ as <-. discriminate E2'.
      + apply obind_ok in EQ. destruct EQ as (m1 & _ & EQ). apply obind_ok in EQ. destruct EQ as (x & _ & EQ). injection EQ as <-. discriminate E2'.
  Qed.
  Theorem AddSchema_fails fuel o url l sl e sl' : sl_validate sl = false -> AddSchema w fuel o url l sl = LErr e sl' ->
    sl' = sl \/ exists ref m r d, w_parse w url = Some ref /\ fst (LoadJSON w l) = Some (VMap m) /\ new_scope (w_parse w) (w_inherits w) ref m = Some r /\ e = EExists r /\
      r <> ref /\ assoc r (sl_pool sl) <> None /\ assoc ref (sl_pool sl) = None /\ sl' = with_pool (aset ref (Spd (VMap m) d) (sl_pool sl)) sl.
  Proof.
    intros V. unfold AddSchema. destruct (w_parse w url) as [ref|] eqn:Ep; [|intros [= _ ->]; auto]. destruct (fst (LoadJSON w l)) as [doc|] eqn:El; [|intros [= _ ->]; auto].
    rewrite V. cbn [lbind]. destruct (pool_parseReferences _ _ _ _ _ _) as [x sl1|e1 sl1| |] eqn:ER; cbn [lbind]; try discriminate. intros [= -> ->].
    apply refs_fail in ER. destruct ER as [->|(_ & m & r & d & -> & S & -> & H1 & H2 & ->)]; [left; reflexivity|].
    right. exists ref, m, r, d. repeat split; auto. intros ->. contradiction.
  Qed.
  Theorem AddSchemas_fails fuel ls : forall o sl e sl', sl_validate sl = false -> AddSchemas w fuel o ls sl = LErr e sl' ->
    exists ls1 l ls2, ls = ls1 ++ l :: ls2 /\ AddSchemas w fuel o ls1 sl = LOk tt sl'.
  Proof.
    induction ls as [|l ls IH]; intros o sl e sl' V; cbn [AddSchemas]; [discriminate|].
    destruct (fst (LoadJSON w l)) as [doc|] eqn:El; [|intros [= _ ->]; exists [], l, ls; auto].
    rewrite V. cbn [lbind]. destruct (pool_parseReferences _ _ _ _ _ _) as [x sl1|e1 sl1| |] eqn:ER; cbn [lbind]; try discriminate.
    - intros E. apply IH in E; [|unfold pool_parseReferences in ER; destruct (parseReferences _ _ _ _ _ _); cbn [run_out lbind] in ER; try discriminate ER; destruct (pr_err a); try discriminate ER; injection ER as _ <-; exact V].
      destruct E as (ls1 & l' & ls2 & -> & E). exists (l :: ls1), l', ls2. split; [reflexivity|]. cbn [AddSchemas]. rewrite El, V. cbn [lbind]. rewrite ER. exact E.
    - intros [= -> ->]. apply refs_fail in ER. destruct ER as [->|(X & _)]; [|discriminate X]. exists [], l, ls. auto.
  Qed.
End Fail.
