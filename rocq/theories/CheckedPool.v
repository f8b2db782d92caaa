(** Computable conditions for the theorems on the document pool. *)
From Verif Require Export PoolProps World1 CheckedShape.
Open Scope string_scope.
Open Scope list_scope.

Definition declared_b (parse : string -> option string) (doc : value) : bool :=
  match doc with
  | VBool _ => true
  | VMap m => match assoc "$schema" m with Some (VStr s) => match parse s with Some _ => true | None => false end | Some _ => false | None => true end
  | _ => false
  end.
Lemma declared_checked parse doc : declared_b parse doc = true -> well_declared parse doc.
Proof.
  destruct doc as [|b|t|f|t|l|m|o]; try discriminate; intros H; [left; eauto|right]. exists m. split; auto. intros x E. cbn [declared_b] in H. rewrite E in H.
  destruct x as [|b|t|f|t|l|m'|o]; try discriminate. destruct (parse t) eqn:Ep; [eauto|discriminate].
Qed.
Definition absent_b (p : pool) (r : string) : bool := match assoc r p with None => true | Some _ => false end.
Definition fresh_b (p : pool) (ids : list (string * value)) : bool := (nodup_b (map fst ids) && forallb (absent_b p) (map fst ids))%bool.
Lemma fresh_checked p ids : fresh_b p ids = true -> fresh p ids.
Proof.
  unfold fresh_b. intros H. apply andb_prop in H. destruct H as [H1 H2]. split; [apply nodup_b_ok; auto|]. rewrite forallb_forall in H2. intros r Hr. apply H2 in Hr.
  unfold absent_b in Hr. destruct (assoc r p); [discriminate|auto].
Qed.
Definition addable_b (sl : sloader) (url t ref : string) : bool :=
  (match parse0 url with Some r => String.eqb r ref | None => false end && match decode_use_number t with Some _ => true | None => false end &&
   numbers_b (moderate_b 1000000) (the_doc t) && negb (sl_validate sl) && declared_b parse0 (the_doc t) && absent_b (sl_pool sl) ref &&
   fresh_b (sl_pool sl) (ids_of parse0 inherits0 ref (the_doc t)))%bool.
Lemma addable_checked sl url t ref : addable_b sl url t ref = true -> forall files pages, addable (serving files pages) sl url (LString t) ref (the_doc t).
Proof.
  unfold addable_b. rewrite !andb_true_iff. intros ((((((H1 & H2) & H3) & H4) & H5) & H6) & H7) files pages.
  assert (EL : decode_use_number t = Some (the_doc t)) by (unfold the_doc; destruct (decode_use_number t); [reflexivity|discriminate]).
  assert (Hd : doc_ok (the_doc t)) by (eapply decode_doc_ok; eauto).
  destruct (fresh_addable (serving files pages) sl ref (the_doc t) Hd (fresh_checked _ _ H7)) as [F1 F2].
  unfold addable. repeat match goal with |- _ /\ _ => apply conj end; auto.
  - cbn [w_parse serving]. destruct (parse0 url) as [r|]; [|discriminate]. apply String.eqb_eq in H1. subst. reflexivity.
  - exact I.
  - apply moderate_checked. exact H3.
  - destruct (sl_validate sl); [discriminate|auto].
  - intros _. apply declared_checked. exact H5.
  - unfold absent_b in H6. destruct (assoc ref (sl_pool sl)); [discriminate|auto].
Qed.
(** What is registered. *)
Definition registered (x : lres unit) (r : string) : option value :=
  match x with LOk _ sl | LErr _ sl => option_map sp_doc (assoc r (sl_pool sl)) | _ => None end.
Definition loader_after (x : lres unit) : sloader := match x with LOk _ sl | LErr _ sl => sl | _ => NewSchemaLoader end.
