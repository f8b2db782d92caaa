(** When Validate fails to return (C61). *)
From Coq Require Import Relations.
From Verif Require Import World0 Checked0 LoadTotal LoopProps LoopCompile Checked SpecLoop.

(** ** C61 *)
(** A check that is made in the course of itself: Validate does not return. *)
Theorem C61_loop_never_returns : forall env h root o v r, fair o -> wf_value v ->
  loops env h (root, v, [STRING_CONTEXT_ROOT]) -> ~ returns env h root o v r.
Proof. intros env h root o v r F W L [k E]. exact (loops_never_return env h root v _ W L k o r F E). Qed.
Print Assumptions C61_loop_never_returns.

(** No such check: Validate comes to an end, within a depth known beforehand. *)
Theorem C61_no_loop_ends : forall env h root o v, fair o ->
  ~ loops env h (root, v, [STRING_CONTEXT_ROOT]) ->
  forall k, (2 * vsize v + 1) * (length h + 2) + length h + 1 <= k -> validateDocument env h k o root v <> NoFuel.
Proof.
  intros env h root o v F N k Hk. destruct (bounded_or_loops env h root v [STRING_CONTEXT_ROOT] k o F) as [H|H]; [|exact H|contradiction].
  assert (Hw : load v <= 2 * vsize v + 1) by (unfold load; generalize (vsize v); destruct v; intros; lia).
  pose proof (Nat.mul_le_mono_r _ _ (S (S (length h))) Hw). unfold stack_depth.
  replace (length h + 2) with (S (S (length h))) in Hk by lia. revert H Hk. generalize ((2 * vsize v + 1) * S (S (length h))) (load v * S (S (length h))). intros. lia.
Qed.
Print Assumptions C61_no_loop_ends.

(** Of a compiled schema and an ordinary instance: exactly one of the two. *)
Theorem C61_exact : forall w, url_laws w -> forall fuel o sl l sch sl', fair o -> loader_fit l ->
  (forall r e, assoc r (sl_pool sl) = Some e -> doc_ok (sp_doc e)) -> Compile w fuel o sl l = LOk sch sl' ->
  forall v o', ordinary (e_ratlim (w_go w)) v -> fair o' ->
  (diverges (w_go w) (s_heap sch) (s_root sch) o' v <-> loops (w_go w) (s_heap sch) (s_root sch, v, [STRING_CONTEXT_ROOT])) /\
  ((exists r, returns (w_go w) (s_heap sch) (s_root sch) o' v r) <-> ~ loops (w_go w) (s_heap sch) (s_root sch, v, [STRING_CONTEXT_ROOT])).
Proof. exact compiled_loops. Qed.
Print Assumptions C61_exact.

(** Whether a schema loops depends on the instance: this one does on numbers
    and does not on strings, where the first branch is enough. *)
Definition C61_schema := "{""anyOf"":[{""type"":""string""},{""$ref"":""#""}]}".
Example C61_example : exists sch sl, NewSchema world0 FUEL in_order (LString C61_schema) = LOk sch sl /\
  (exists r, returns go0 (s_heap sch) (s_root sch) in_order (VStr "x") r) /\
  ~ loops go0 (s_heap sch) (s_root sch, VStr "x", [STRING_CONTEXT_ROOT]) /\
  loops go0 (s_heap sch) (s_root sch, VNum "1", [STRING_CONTEXT_ROOT]) /\
  (forall o, fair o -> diverges go0 (s_heap sch) (s_root sch) o (VNum "1")).
Proof.
  remember (NewSchema world0 FUEL in_order (LString C61_schema)) as e eqn:E. assert (E' := E). symmetry in E'. vm_compute in E.
  match type of E with e = LOk ?a ?b => exists a, b end. split; [exact E|]. rewrite E in E'. clear E e. cbn [s_heap s_root].
  match goal with |- ?A /\ _ => assert (R : A) by (eexists; exists 5; vm_compute; reflexivity) end.
  split; [exact R|]. split.
  { intros L. destruct R as (r & R). exact (C61_loop_never_returns _ _ _ _ _ r in_order_fair (wf_str "x") L R). }
  match goal with |- ?A /\ _ => assert (L : A) end.
  { assert (Any : forall h a n b i, nth_error h a = Some n -> n_pass n = None -> n_ref n = None -> n_types n = [] -> n_anyOf n = [i; b] ->
      validateRecursive go0 h 5 in_order i (VNum "1") [STRING_CONTEXT_ROOT] = Ok (emit InvalidTypeError [STRING_CONTEXT_ROOT] (VNum "1") [("expected", DStr "string"); ("given", DStr "integer")]) ->
      makes go0 h (a, VNum "1", [STRING_CONTEXT_ROOT]) (b, VNum "1", [STRING_CONTEXT_ROOT])).
    { intros h a n b i Hn Hp Hr Ht Ha Hi. eapply m_asks; eauto; [left; exact Ht|reflexivity|]. apply (a_anyOf _ _ _ _ _ [i] b []); [exact Ha|]. constructor; [|constructor].
      eexists. split; [exists 5, in_order; split; [exact in_order_fair|exact Hi]|reflexivity]. }
    exists (3, VNum "1", [STRING_CONTEXT_ROOT]). split.
    - eapply rt_trans; [apply rt_step; eapply (Any _ 0 _ 2 1); reflexivity|]. apply rt_step. eapply m_ref; reflexivity.
    - eapply t_trans; [apply t_step; eapply (Any _ 3 _ 5 4); reflexivity|]. apply t_step. eapply m_ref; reflexivity. }
  split; [exact L|]. intros o F.
  assert (O : ordinary 1000000 (VNum "1")).
  { apply ordinary_checked; [|vm_compute; reflexivity]. split; [constructor; reflexivity|reflexivity]. }
  rewrite NewSchema_Compile in E'.
  destruct (C61_exact world0 world0_laws FUEL in_order NewSchemaLoader (LString C61_schema) _ _ in_order_fair I (fun r e => ltac:(discriminate)) E' (VNum "1") o O F) as [X _].
  apply X. exact L.
Qed.
