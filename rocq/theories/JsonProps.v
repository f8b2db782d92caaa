(** const, enum and uniqueItems on numbers that are exactly float64 values, and
    the decoder. *)
From Verif Require Export UniqueProps ExactEqual.
From Coq Require Import Lia.
Open Scope string_scope.

Lemma assoc_numbers P m k x : all_numbers P (VMap m) -> assoc k m = Some x -> all_numbers P x.
Proof. intros H E. inversion H as [| | | | | |? F]; subst. rewrite Forall_forall in F. apply assoc_In in E. apply (F _ E). Qed.
Lemma assoc_doc_ok m k x : doc_ok (VMap m) -> assoc k m = Some x -> doc_ok x.
Proof. intros H E. apply doc_ok_map in H. destruct H as [_ H]. rewrite Forall_forall in H. apply assoc_In in E. apply (H _ E). Qed.

Section Exact.
  Variable w : world.
  Hypothesis HU : url_laws w.
  Notation lim := (e_ratlim (w_go w)).
  Variables (sl : sloader) (m : list (string * value)) (sch : schema).
  Hypothesis HS : schema_of w sl (VMap m) sch.
  Hypothesis HL : Forall leaf m.
  Hypothesis HX : all_numbers exact_number (VMap m).

  Lemma schema_doc_ok : doc_ok (VMap m).
  Proof. destruct HS as (fuel & o & l & sl' & _ & _ & Hf & El & _). eapply LoadJSON_doc_ok; eauto. Qed.

  Theorem const_value : (forall k, In k (map fst m) -> In k ["$schema"; "title"; "description"; "const"]) ->
    forall v, ordinary lim v -> all_numbers exact_number v ->
    verdict w sch v (root_draft w sl (VMap m) <> Draft4 -> forall x, assoc "const" m = Some x -> equal same_value v x).
  Proof.
    intros HK v O X. eapply verdict_ext; [|exact (const_exact w HU sl m sch HS HL HK v O)].
    assert (K : forall x, assoc "const" m = Some x -> (equal same_float v x <-> equal same_value v x)).
    { intros x E. apply exact_equal; auto; [exact (assoc_numbers _ _ _ _ HX E)|apply O|exact (assoc_doc_ok _ _ _ schema_doc_ok E)|apply O]. }
    split; intros H Hd x E; apply (K x E); auto.
  Qed.
  Theorem enum_value : (forall k, In k (map fst m) -> In k ["$schema"; "title"; "description"; "enum"]) -> assoc "enum" m <> Some (VArr []) ->
    forall v, ordinary lim v -> all_numbers exact_number v ->
    verdict w sch v (forall xs, assoc "enum" m = Some (VArr xs) -> exists x, In x xs /\ equal same_value v x).
  Proof.
    intros HK HE v O X. eapply verdict_ext; [|exact (enum_exact w HU sl m sch HS HL HK HE v O)].
    assert (K : forall xs x, assoc "enum" m = Some (VArr xs) -> In x xs -> (equal same_float v x <-> equal same_value v x)).
    { intros xs x E Hx. pose proof (assoc_numbers _ _ _ _ HX E) as A. pose proof (assoc_doc_ok _ _ _ schema_doc_ok E) as D.
      inversion A as [| | | | |? F|]; subst. rewrite Forall_forall in F. apply doc_ok_arr in D. rewrite Forall_forall in D. apply exact_equal; auto; apply O. }
    split; intros H xs E; destruct (H xs E) as (x & Hx & Q); exists x; (split; [exact Hx|]); apply (K xs x E Hx); exact Q.
  Qed.
  Theorem unique_value : (forall k, In k (map fst m) -> In k ["$schema"; "title"; "description"; "uniqueItems"]) ->
    forall l, ordinary lim (VArr l) -> all_numbers exact_number (VArr l) ->
    verdict w sch (VArr l) (assoc "uniqueItems" m = Some (VBool true) ->
      forall i j a b, i < j -> nth_error l i = Some a -> nth_error l j = Some b -> ~ equal same_value a b).
  Proof.
    intros HK l O X. eapply verdict_ext; [|exact (unique_exact w HU sl m sch HS HL HK l O)].
    assert (K : forall i j a b, nth_error l i = Some a -> nth_error l j = Some b -> (equal same_float a b <-> equal same_value a b)).
    { intros i j a b Ea Eb. apply nth_error_In in Ea. apply nth_error_In in Eb. inversion X as [| | | | |? F|]; subst. rewrite Forall_forall in F.
      destruct (ordinary_arr _ _ _ O Ea) as (D1 & R1 & _), (ordinary_arr _ _ _ O Eb) as (D2 & R2 & _). apply exact_equal; auto. }
    split; intros H E i j a b Hij Ea Eb Q; apply (H E i j a b Hij Ea Eb); apply (K i j a b Ea Eb); exact Q.
  Qed.
End Exact.

(** The decoder keeps numbers as text. *)
Lemma json_no_float s f : ~ json verbatim s (VFloat f).
Proof. intros H. inversion H; subst. discriminate. Qed.
