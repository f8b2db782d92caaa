(** Checking by computation that the references of a document stand alone. *)
From Verif Require Export CheckedFetch ExactFetch.
Open Scope nat_scope.

Definition alone_b (q : draft * value) : bool :=
  match snd q with VMap m => match assoc "$ref" m, m with Some (VStr _), [_] => true | Some (VStr _), _ => false | _, _ => true end | _ => true end.
Section Alone.
  Variable lead : string -> option (draft * value).
  Definition walk_b (L : list (draft * value)) (q : draft * value) : bool :=
    (mem q L && forallb (fun q' => draft_eqb (fst q') (fst q) && (numbers_b (moderate_b 0) (snd q') && alone_b q') && match nexts lead q' with Some a => forallb (fun p => mem p L) a | None => false end) L)%bool.
  Variable T : draft -> string -> draft -> value -> Prop.
  Variable d0 : draft.
  Hypothesis HT : forall k q, lead k = Some q -> forall d' x, T d0 k d' x -> (d', x) = q.
  Lemma walk_collected L v0 : walk_b L (d0, v0) = true -> forall d v, meets T d0 v0 d v -> In (d, v) L.
  Proof.
    unfold walk_b. intros E. apply andb_prop in E. destruct E as [E1 E2]. rewrite forallb_forall in E2. intros d v M.
    induction M as [|d m x _ IH S|d m k d' x _ IH Er L0]; [apply mem_In; auto| |].
    - specialize (E2 _ IH). apply andb_prop in E2. destruct E2 as [_ E2]. unfold nexts in E2. cbn [fst snd] in E2. apply subschema_subs in S.
      assert (G : forallb (fun p => mem p L) (map (pair d) (subs m)) = true).
      { destruct (assoc "$ref" m) as [y|]; [|exact E2]. destruct y; try exact E2. destruct (lead s); [|discriminate E2]. cbn [forallb] in E2. apply andb_prop in E2. apply E2. }
      rewrite forallb_forall in G. apply mem_In, G, in_map. auto.
    - specialize (E2 _ IH). apply andb_prop in E2. destruct E2 as [Ed E2]. unfold nexts in E2. cbn [fst snd] in E2. rewrite Er in E2.
      destruct (lead k) as [p|] eqn:El; [|discriminate E2]. apply andb_prop in Ed. destruct Ed as [Ed _]. apply draft_eqb_eq in Ed. cbn [fst] in Ed. subst d. rewrite (HT _ _ El _ _ L0). cbn [forallb] in E2. apply andb_prop in E2. apply mem_In. apply E2.
  Qed.
  Lemma alone_sealed re d k x : sealed re d [(k, x)] \/ k <> "$ref".
  Proof.
    destruct (String.eqb_spec k "$ref") as [->|N]; [left|auto].
    assert (A : forall j, j <> "$ref" -> assoc j [("$ref", x)] = None) by (intros j Hj; cbn [assoc]; destruct (String.eqb_spec j "$ref"); congruence).
    assert (KW : forall j P, j <> "$ref" -> kw [("$ref", x)] j P) by (intros j P Hj y E; rewrite A in E by auto; discriminate).
    split; [|split].
    - unfold plain_shapes, ok_type, ok_multipleOf, ok_exclusive, ok_natural, ok_order, ok_pattern, ok_required, ok_const, ok_enum. repeat match goal with |- _ /\ _ => split end; try (intros _); apply KW; discriminate.
    - unfold schema_shapes, ok_additional, ok_patternProperties, ok_dependencies, ok_items. repeat match goal with |- _ /\ _ => split end; apply KW; discriminate.
    - intros y S. destruct S as [ds e y E Hin|j ms e y Hk E Hin|j y Hk E Nb|ds e y E Hin Na|y E Na|j l y Hk E Hin|j y Hd6 Hk E|j y Hd7 Hk E|y E]; exfalso;
        try (rewrite A in E by discriminate; discriminate); cbn [In] in Hk; repeat (destruct Hk as [<-|Hk]; [rewrite A in E by discriminate; discriminate|]); destruct Hk.
  Qed.
  Lemma walk_sealed L v0 : walk_b L (d0, v0) = true -> forall re d m k, meets T d0 v0 d (VMap m) -> assoc "$ref" m = Some (VStr k) -> sealed re d m.
  Proof.
    intros E re d m k M Er. pose proof (walk_collected L v0 E _ _ M) as Hin. unfold walk_b in E. apply andb_prop in E. destruct E as [_ E]. rewrite forallb_forall in E. specialize (E _ Hin).
    apply andb_prop in E. destruct E as [E _]. apply andb_prop in E. destruct E as [_ E]. apply andb_prop in E. destruct E as [_ E]. unfold alone_b in E. cbn [snd] in E. rewrite Er in E.
    destruct m as [|[j x] [|]]; try discriminate E. destruct (alone_sealed re d j x) as [H|N]; auto. cbn [assoc] in Er. destruct (String.eqb_spec "$ref" j); congruence.
  Qed.
  Lemma walk_numbers lim L v0 : (0 <= lim)%Z -> walk_b L (d0, v0) = true -> forall d v, meets T d0 v0 d v -> all_numbers (moderate lim) v.
  Proof.
    intros Hl E d v M. pose proof (walk_collected L v0 E _ _ M) as Hin. unfold walk_b in E. apply andb_prop in E. destruct E as [_ E]. rewrite forallb_forall in E. specialize (E _ Hin).
    apply andb_prop in E. destruct E as [E _]. apply andb_prop in E. destruct E as [_ E]. apply andb_prop in E. destruct E as [E _].
    apply moderate_checked in E. eapply all_numbers_weak; [|exact E]. intros s. apply moderate_weak. auto.
  Qed.
End Alone.
