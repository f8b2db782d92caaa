(** Verdicts of concrete schema and instance texts in the example world. *)
From Verif Require Export World0 World0Facts Checked.
Open Scope string_scope.

(** The instance text satisfies the schema text, by the rules of the drafts. *)
Definition text_means (s t : string) : Prop :=
  let doc := the_doc s in
  let d := root_draft world0 NewSchemaLoader doc in
  meaning (pat go0) (fmt go0) same (leads_to (cenv_of world0 NewSchemaLoader) (known_documents world0 NewSchemaLoader doc) d) d
          (resolve parse0 inherits0 "" doc) (the_doc t).
Definition example_checked (s t : string) : bool :=
  (text_checked world0 20 s && match decode_use_number t with Some _ => true | None => false end &&
   ordinary_b 1000000 (the_doc t) && match NewSchema world0 FUEL in_order (LString s) with LOk x _ => Nat.eqb (s_root x) 0 | _ => false end)%bool.
Lemma text_verdict s t r : example_checked s t = true -> validate_text s t = Ok r -> (Valid r = true <-> text_means s t).
Proof.
  unfold example_checked. rewrite !andb_true_iff. intros (((H1 & H2) & H3) & H4) E.
  apply text_checked_ok in H1. destruct H1 as (E1 & E2 & E3 & E4 & E5 & E6).
  assert (D : doc_ok (the_doc t)). { unfold the_doc. destruct (decode_use_number t) as [x|] eqn:Ex; [eapply decode_doc_ok; eauto|discriminate]. }
  unfold validate_text, graph in E. destruct (NewSchema world0 FUEL in_order (LString s)) as [sch sl'|e sl'| |] eqn:EN; try discriminate.
  apply Nat.eqb_eq in H4. change (loaded t) with (the_doc t) in E.
  apply ordinary_checked in H3; auto.
  pose proof (regular_fits _ 1000000 _ _ _ H3 E6) as W.
  destruct (new_total world0 world0_laws FUEL in_order (LString s) (the_doc s) sch sl' in_order_fair) with (v := the_doc t) as [A _]; auto; try discriminate.
  - exact I.
  - apply ordinary_usual; auto.
  - apply (A _ (meaning_exists _ _ _ _ _ _ _ (guarded_well_founded _ _ _ E5 _ _ _ (within_root _ _ _))) in_order); [apply in_order_fair|].
    exists FUEL. rewrite H4. exact E.
Qed.
Definition accepts (s t : string) : bool := (example_checked s t && match validate_text s t with Ok r => Valid r | _ => false end)%bool.
Definition rejects (s t : string) : bool := (example_checked s t && match validate_text s t with Ok r => negb (Valid r) | _ => false end)%bool.
Lemma text_accepts s t : accepts s t = true -> text_means s t.
Proof.
  unfold accepts. intros E. apply andb_prop in E. destruct E as [E1 E2]. destruct (validate_text s t) as [r| |] eqn:E; try discriminate. apply (text_verdict s t r); auto.
Qed.
Lemma text_rejects s t : rejects s t = true -> ~ text_means s t.
Proof.
  unfold rejects. intros E. apply andb_prop in E. destruct E as [E1 E2]. destruct (validate_text s t) as [r| |] eqn:E; try discriminate.
  intros H. apply (text_verdict s t r E1 E) in H. rewrite H in E2. discriminate.
Qed.
