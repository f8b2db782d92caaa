(** The same of a schema that Compile returns. *)
From Coq Require Import Relations.
From Verif Require Import LoadTotal LoopProps SpecLoop.

Lemma std_wf v : std v -> wf_value v.
Proof.
  induction v using value_ind'; intros S; inversion S as [| | | | |? S'|? N S']; subst; constructor; auto.
  - apply Forall_forall. intros x Hx. rewrite Forall_forall in *. auto.
  - apply Forall_forall. intros x Hx. rewrite Forall_forall in *. apply H; auto. apply S'; auto.
Qed.

Theorem compiled_loops w : url_laws w -> forall fuel o sl l sch sl', fair o -> loader_fit l ->
  (forall r e, assoc r (sl_pool sl) = Some e -> doc_ok (sp_doc e)) -> Compile w fuel o sl l = LOk sch sl' ->
  forall v o', ordinary (e_ratlim (w_go w)) v -> fair o' ->
  (diverges (w_go w) (s_heap sch) (s_root sch) o' v <-> loops (w_go w) (s_heap sch) (s_root sch, v, [STRING_CONTEXT_ROOT])) /\
  ((exists r, returns (w_go w) (s_heap sch) (s_root sch) o' v r) <-> ~ loops (w_go w) (s_heap sch) (s_root sch, v, [STRING_CONTEXT_ROOT])).
Proof.
  intros HU fuel o sl l sch sl' F Hl Hs E v o' O F'. pose proof (compile_no_panic w HU fuel o sl l sch sl' F Hl Hs E v o' O F') as NP.
  assert (W : wf_value v) by (apply std_wf; apply O).
  pose proof (loops_never_return (w_go w) (s_heap sch) (s_root sch) v [STRING_CONTEXT_ROOT] W) as A.
  pose proof (bounded_or_loops (w_go w) (s_heap sch) (s_root sch) v [STRING_CONTEXT_ROOT] _ o' F' (le_n _)) as B.
  split; split.
  - intros D. destruct B as [B|B]; auto. destruct B. apply D.
  - intros L k. destruct (validateDocument _ _ k o' _ v) as [r| |] eqn:Ev; auto; [destruct (A L k o' r F' Ev)|destruct NP; exists k; exact Ev].
  - intros (r & k & Ev) L. exact (A L k o' r F' Ev).
  - intros N. destruct B as [B|B]; [|contradiction].
    destruct (validateDocument (w_go w) (s_heap sch) (stack_depth (s_heap sch) v) o' (s_root sch) v) as [r| |] eqn:Ev; [exists r, (stack_depth (s_heap sch) v); exact Ev|destruct NP; eexists; exact Ev|destruct B; exact Ev].
Qed.
